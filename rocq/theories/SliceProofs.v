(** Slices: the machine's loop selects the positions of the specification. *)
From Verif Require Import Syntax Value Machine SpecDoc SpecSelect.
Local Open Scope Z_scope.

Lemma wrap64_id : forall z, in_int64 z -> wrap64 z = z.
Proof.
  intros z [H1 H2]. unfold wrap64, two63, two64, min_int64, max_int64 in *.
  rewrite Z.mod_small by lia. lia.
Qed.

Lemma index_elem : forall (l : list val) i x, index_Z l i = Some x <-> elem l i x.
Proof.
  intros l i x. unfold index_Z, elem. destruct (Z.ltb_spec i 0); intuition; try lia; discriminate.
Qed.

Lemma elem_ex : forall l i, 0 <= i < Z.of_nat (length l) -> exists x, elem l i x.
Proof.
  intros l i H. destruct (nth_error l (Z.to_nat i)) eqn:E.
  - exists v. split; [lia|exact E].
  - apply nth_error_None in E. lia.
Qed.

(** the number of terms of a progression before a limit *)
Definition count_up (from to c : Z) : nat :=
  if from <? to then Z.to_nat ((to - from - 1) / c + 1) else 0%nat.

Lemma count_up_spec : forall from to c, 0 < c ->
  forall k, (k < count_up from to c)%nat <-> from + Z.of_nat k * c < to.
Proof.
  intros from to c Hc k. unfold count_up. destruct (Z.ltb_spec from to).
  - assert (0 <= (to - from - 1) / c) by (apply Z.div_pos; lia).
    split; intro Hk.
    + assert (Z.of_nat k <= (to - from - 1) / c) by lia.
      pose proof (Z.mul_div_le (to - from - 1) c Hc). nia.
    + assert (Z.of_nat k <= (to - from - 1) / c); [|lia].
      apply Z.div_le_lower_bound; nia.
  - split; [lia|nia].
Qed.

Lemma count_down_spec : forall from to c, c < 0 ->
  forall k, (k < count_up (- from) (- to) (- c))%nat <-> from + Z.of_nat k * c > to.
Proof.
  intros from to c Hc k. rewrite count_up_spec by lia. nia.
Qed.

Lemma count_unique : forall (P : nat -> Prop) n m,
  (forall k, (k < n)%nat <-> P k) -> (forall k, (k < m)%nat <-> P k) -> n = m.
Proof.
  intros P n m Hn Hm.
  assert (forall k, (k < n)%nat <-> (k < m)%nat) as H by (intro k; rewrite Hn, Hm; tauto).
  pose proof (H n). pose proof (H m). lia.
Qed.

Lemma progression_S : forall from c n,
  progression from c (S n) = from :: progression (from + c) c n.
Proof.
  intros. unfold progression. cbn [seq map]. f_equal; [lia|].
  rewrite <- seq_shift, map_map. apply map_ext. intro. lia.
Qed.

Lemma progression_last : forall from c n,
  progression from c (S n) = progression from c n ++ [from + Z.of_nat n * c].
Proof. intros. unfold progression. rewrite seq_S, map_app. reflexivity. Qed.

Lemma g_list_append : forall g v, g_list (g_append g v) = g_list g ++ [v].
Proof. reflexivity. Qed.

(** ** The ascending loop *)
Section up.
Variable l : list val.
Variables to c : Z.
Hypothesis Hc : 0 < c <= max_int64.
Hypothesis Hto : to <= Z.of_nat (length l) <= max_int64.

Definition up_ok (from : Z) (n : nat) : Prop :=
  forall k, (k < n)%nat -> from + Z.of_nat k * c + c <= max_int64.

Lemma loop_up : forall n fuel from acc,
  (forall k, (k < n)%nat <-> from + Z.of_nat k * c < to) -> 0 <= from -> (n <= fuel)%nat ->
  up_ok from n ->
  exists xs, Forall2 (elem l) (progression from c n) xs /\
    exists g, slice_loop fuel true l from to c acc = OK g /\ g_list g = g_list acc ++ xs /\
      (xs = [] -> g = acc).
Proof.
  induction n as [|n IH]; intros fuel from acc Hn H0 Hf Hok.
  - exists []. split; [constructor|].
    assert (from <? to = false) as E.
    { apply Z.ltb_ge. pose proof (Hn 0%nat). lia. }
    exists acc. split; [destruct fuel; simpl; rewrite E; reflexivity|].
    split; [symmetry; apply app_nil_r|auto].
  - destruct fuel as [|fuel]; [lia|].
    assert (Hlt : from < to) by (pose proof (Hn 0%nat); lia).
    destruct (elem_ex l from) as [x Hx]; [lia|].
    assert (Hw : wrap64 (from + c) = from + c).
    { apply wrap64_id. pose proof (Hok 0%nat). unfold in_int64, min_int64 in *. lia. }
    destruct (IH fuel (from + c) (g_append acc x)) as (xs & Hxs & g & Hg & Hl & _).
    { intro k. pose proof (Hn (S k)). split; intro; [|]; nia. }
    { lia. } { lia. }
    { intros k Hk. pose proof (Hok (S k)). nia. }
    exists (x :: xs). rewrite progression_S. split; [constructor; auto|].
    exists g. split; [|split; [|discriminate]].
    + cbn [slice_loop]. apply Z.ltb_lt in Hlt. rewrite Hlt.
      apply index_elem in Hx. rewrite Hx, Hw. exact Hg.
    + rewrite Hl, g_list_append, <- app_assoc. reflexivity.
Qed.

Lemma loop_up_overflow : forall n fuel from acc,
  (forall k, (k < S n)%nat <-> from + Z.of_nat k * c < to) -> 0 <= from -> (n + 2 <= fuel)%nat ->
  from + Z.of_nat n * c + c > max_int64 ->
  slice_loop fuel true l from to c acc = Panics.
Proof.
  induction n as [|n IH]; intros fuel from acc Hn H0 Hf Hov.
  - destruct fuel as [|[|fuel]]; try lia.
    assert (Hlt : from < to) by (pose proof (Hn 0%nat); lia).
    destruct (elem_ex l from) as [x Hx]; [lia|].
    apply index_elem in Hx. cbn [slice_loop]. pose proof Hlt as Hlt'. apply Z.ltb_lt in Hlt'.
    rewrite Hlt', Hx.
    assert (Hneg : wrap64 (from + c) < 0).
    { unfold wrap64, two63, two64, max_int64 in *.
      replace (from + c + 9223372036854775808) with
        ((from + c - 9223372036854775808) + 1 * 18446744073709551616) by lia.
      rewrite Z.mod_add by lia. rewrite Z.mod_small by lia. lia. }
    assert (wrap64 (from + c) <? to = true) as -> by (apply Z.ltb_lt; lia).
    unfold index_Z. assert (wrap64 (from + c) <? 0 = true) as -> by (apply Z.ltb_lt; lia).
    reflexivity.
  - destruct fuel as [|fuel]; [lia|].
    assert (Hlt : from < to) by (pose proof (Hn 0%nat); lia).
    destruct (elem_ex l from) as [x Hx]; [lia|].
    apply index_elem in Hx. cbn [slice_loop]. pose proof Hlt as Hlt'. apply Z.ltb_lt in Hlt'.
    rewrite Hlt', Hx.
    assert (from + c < to) by (pose proof (Hn 1%nat); lia).
    rewrite wrap64_id by (unfold in_int64, min_int64; lia).
    apply IH; try lia.
    intro k. pose proof (Hn (S k)). split; intro; nia.
Qed.
End up.

(** ** The descending loop *)
Lemma loop_down : forall l to c, min_int64 <= c < 0 -> -1 <= to ->
  Z.of_nat (length l) <= max_int64 ->
  forall n fuel from acc,
  (forall k, (k < n)%nat <-> from + Z.of_nat k * c > to) -> from < Z.of_nat (length l) ->
  (n <= fuel)%nat ->
  exists xs, Forall2 (elem l) (progression from c n) xs /\
    exists g, slice_loop fuel false l from to c acc = OK g /\ g_list g = g_list acc ++ xs /\
      (xs = [] -> g = acc).
Proof.
  intros l to c Hc Hto Hl. induction n as [|n IH]; intros fuel from acc Hn H0 Hf.
  - exists []. split; [constructor|].
    assert (from >? to = false) as E.
    { rewrite Z.gtb_ltb. apply Z.ltb_ge. pose proof (Hn 0%nat). lia. }
    exists acc. split; [destruct fuel; simpl; rewrite E; reflexivity|].
    split; [symmetry; apply app_nil_r|auto].
  - destruct fuel as [|fuel]; [lia|].
    assert (Hgt : from > to) by (pose proof (Hn 0%nat); lia).
    destruct (elem_ex l from) as [x Hx]; [lia|].
    assert (Hw : wrap64 (from + c) = from + c).
    { apply wrap64_id. unfold in_int64, min_int64, max_int64 in *. lia. }
    destruct (IH fuel (from + c) (g_append acc x)) as (xs & Hxs & g & Hg & Hll & _).
    { intro k. pose proof (Hn (S k)). split; intro; [|]; nia. }
    { lia. } { lia. }
    exists (x :: xs). rewrite progression_S. split; [constructor; auto|].
    exists g. split; [|split; [|discriminate]].
    + cbn [slice_loop].
      assert (from >? to = true) as -> by (rewrite Z.gtb_ltb; apply Z.ltb_lt; lia).
      apply index_elem in Hx. rewrite Hx, Hw. exact Hg.
    + rewrite Hll, g_list_append, <- app_assoc. reflexivity.
Qed.

(** ** The interpretation of the bounds *)
Definition in_oint64 (x : option Z) : Prop := match x with Some z => in_int64 z | None => True end.

(** the machine's reading of a bound: an expression counts as 0 *)
Definition bound_int (b : option bound) : option Z := option_map cvi_bound b.

Lemma bound_is_int : forall b x, bound_is b x -> bound_int b = x.
Proof. intros b x H. destruct H; reflexivity. Qed.

Lemma sliceEval_up : forall s len, 0 <= len <= max_int64 ->
  in_oint64 (bound_int (sl_start s)) -> in_oint64 (bound_int (sl_end s)) ->
  0 < or_default 1 (bound_int (sl_stride s)) ->
  sliceEval s len =
    (clip 0 len (from_end len (or_default 0 (bound_int (sl_start s)))),
     clip 0 len (from_end len (or_default len (bound_int (sl_end s)))),
     or_default 1 (bound_int (sl_stride s))).
Proof.
  intros [a b c] len Hlen Ha Hb Hc. unfold sliceEval. cbn [sl_start sl_end sl_stride] in *.
  replace (match c with Some b => cvi_bound b | None => 1 end) with (or_default 1 (bound_int c))
    by (destruct c; reflexivity).
  set (s := or_default 1 (bound_int c)) in *.
  destruct (Z.ltb_spec s 0); [lia|].
  replace (match a with Some b => cvi_bound b | None => 0 end) with (or_default 0 (bound_int a))
    by (destruct a; reflexivity).
  replace (match b with Some b => cvi_bound b | None => len end) with (or_default len (bound_int b))
    by (destruct b; reflexivity).
  assert (Ha' : in_int64 (or_default 0 (bound_int a))).
  { destruct (bound_int a); simpl in *; auto. unfold in_int64, min_int64, max_int64; lia. }
  assert (Hb' : in_int64 (or_default len (bound_int b))).
  { destruct (bound_int b); simpl in *; auto. unfold in_int64, min_int64, max_int64 in *; lia. }
  set (x := or_default 0 (bound_int a)) in *. set (y := or_default len (bound_int b)) in *.
  assert (E : forall z, in_int64 z ->
    (if z >? len then len else if z <? 0 then if wrap64 (z + len) <? 0 then 0 else wrap64 (z + len) else z)
    = clip 0 len (from_end len z)).
  { intros z Hz. unfold clip, from_end. rewrite Z.gtb_ltb.
    destruct (Z.ltb_spec len z); destruct (Z.ltb_spec z 0); try lia.
    rewrite wrap64_id by (unfold in_int64, min_int64, max_int64 in *; lia).
    destruct (Z.ltb_spec (z + len) 0); lia. }
  cbv zeta. rewrite (E x Ha'), (E y Hb'). reflexivity.
Qed.

Lemma sliceEval_down : forall s len, 0 <= len <= max_int64 ->
  in_oint64 (bound_int (sl_start s)) -> in_oint64 (bound_int (sl_end s)) ->
  or_default 1 (bound_int (sl_stride s)) < 0 ->
  exists to, sliceEval s len =
    (clip (-1) (len - 1) (from_end len (or_default (len - 1) (bound_int (sl_start s)))), to,
     or_default 1 (bound_int (sl_stride s))) /\ -1 <= to /\
    (to = len \/ to = match bound_int (sl_end s) with None => -1
                      | Some e => clip (-1) (len - 1) (from_end len e) end) /\
    (to = len -> match bound_int (sl_end s) with None => -1
                      | Some e => clip (-1) (len - 1) (from_end len e) end = len - 1).
Proof.
  intros [a b c] len Hlen Ha Hb Hc. unfold sliceEval. cbn [sl_start sl_end sl_stride] in *.
  replace (match c with Some b => cvi_bound b | None => 1 end) with (or_default 1 (bound_int c))
    by (destruct c; reflexivity).
  set (s := or_default 1 (bound_int c)) in *.
  destruct (Z.ltb_spec s 0); [|lia].
  replace (match a with Some b => cvi_bound b | None => len - 1 end)
    with (or_default (len - 1) (bound_int a)) by (destruct a; reflexivity).
  assert (Ha' : in_int64 (or_default (len - 1) (bound_int a))).
  { destruct (bound_int a); simpl in *; auto. unfold in_int64, min_int64, max_int64 in *; lia. }
  set (x := or_default (len - 1) (bound_int a)) in *.
  assert (E : forall z, in_int64 z ->
    (if z >=? len then len - 1
     else if z <? 0 then if wrap64 (z + len) <? 0 then -1 else wrap64 (z + len) else z)
    = clip (-1) (len - 1) (from_end len z)).
  { intros z Hz. unfold clip, from_end. rewrite Z.geb_leb.
    destruct (Z.leb_spec len z); destruct (Z.ltb_spec z 0); try lia.
    rewrite wrap64_id by (unfold in_int64, min_int64, max_int64 in *; lia).
    destruct (Z.ltb_spec (z + len) 0); lia. }
  cbv zeta. rewrite (E x Ha'). eexists. split; [reflexivity|].
  set (y := match b with Some b => cvi_bound b | None => - len - 1 end).
  assert (Hb' : in_int64 y).
  { unfold y. destruct b; simpl in *; auto. unfold in_int64, min_int64, max_int64 in *; lia. }
  destruct b as [e|].
  - cbn [bound_int option_map] in *. unfold y in *. clear y. set (y := cvi_bound e) in *.
    unfold clip, from_end. rewrite Z.gtb_ltb.
    destruct (Z.ltb_spec len y).
    + destruct (Z.ltb_spec y 0); [lia|]. lia.
    + destruct (Z.ltb_spec y 0).
      * rewrite wrap64_id by (unfold in_int64, min_int64, max_int64 in *; lia).
        destruct (Z.ltb_spec (y + len) 0); lia.
      * lia.
  - cbn [bound_int option_map] in *. unfold y in *. rewrite Z.gtb_ltb.
    destruct (Z.ltb_spec len (- len - 1)); [lia|].
    destruct (Z.ltb_spec (- len - 1) 0); [|lia].
    rewrite wrap64_id by (unfold in_int64, min_int64, max_int64 in *; lia).
    replace (- len - 1 + len) with (-1) by lia. simpl. lia.
Qed.

(** ** valsByKey with a slice, on an array *)
Definition slice_ints (s : slice) : option Z * option Z * option Z :=
  (bound_int (sl_start s), bound_int (sl_end s), bound_int (sl_stride s)).

Lemma progression_elems : forall l from c n,
  (forall k, (k < n)%nat -> 0 <= from + Z.of_nat k * c < Z.of_nat (length l)) ->
  exists xs, Forall2 (elem l) (progression from c n) xs.
Proof.
  intros l from c n. revert from. induction n as [|n IH]; intros from H.
  - exists []. constructor.
  - rewrite progression_S. destruct (elem_ex l from) as [x Hx].
    { pose proof (H 0%nat). lia. }
    destruct (IH (from + c)) as [xs Hxs].
    { intros k Hk. pose proof (H (S k)). lia. }
    exists (x :: xs). constructor; auto.
Qed.

Lemma elems_fun : forall l ps xs ys, Forall2 (elem l) ps xs -> Forall2 (elem l) ps ys -> xs = ys.
Proof.
  intros l ps xs ys H. revert ys. induction H; intros ys Hy; inversion Hy; subst; auto.
  f_equal; auto. destruct H, H3. congruence.
Qed.

Lemma positions_fun : forall len a b c ps qs,
  slice_positions len a b c ps -> slice_positions len a b c qs -> ps = qs.
Proof.
  intros len a b c ps qs H1 H2.
  destruct H1 as [s n Hs Hp from to Hn|s n Hs Hp from to Hn|Hz];
    destruct H2 as [s' n' Hs' Hp' from' to' Hn'|s' n' Hs' Hp' from' to' Hn'|Hz'];
    subst; try lia; try reflexivity; simpl in *; try lia.
  - f_equal. exact (count_unique _ n n' Hn Hn').
  - f_equal. exact (count_unique _ n n' Hn Hn').
Qed.

Lemma clip_range : forall lo hi x, lo <= hi -> lo <= clip lo hi x <= hi.
Proof. intros. unfold clip. lia. Qed.

Lemma slice_keys : forall W acc l s neg a b c, slice_ints s = (a, b, c) ->
  Z.of_nat (length l) <= max_int64 -> in_oint64 a -> in_oint64 b -> in_oint64 c ->
  (exists g xs, valsByKey W acc (VArr l) (VSlice s) neg = OK g /\ g_list g = g_list acc ++ xs /\
     (acc <> None -> g <> None) /\
     ~ overflowing (Z.of_nat (length l)) a b c /\
     picks (SSlice a b c) (VArr l) xs) \/
  (valsByKey W acc (VArr l) (VSlice s) neg = Panics /\ overflowing (Z.of_nat (length l)) a b c).
Proof.
  intros W acc l s neg a b c Hs Hlen Ha Hb Hc. injection Hs as Ea Eb Ec.
  set (len := Z.of_nat (length l)) in *.
  assert (Hs64 : in_int64 (or_default 1 c)).
  { destruct c; simpl in *; auto. unfold in_int64, min_int64, max_int64; lia. }
  unfold valsByKey. fold len.
  destruct (Z.lt_trichotomy (or_default 1 c) 0) as [Hn|[Hz|Hp]].
  - (* descending *)
    left.
    destruct (sliceEval_down s len) as (to & -> & Hto1 & Hto2 & Hto3);
      rewrite ?Ea, ?Eb, ?Ec in *; auto; [lia|].
    set (from := clip (-1) (len - 1) (from_end len (or_default (len - 1) a))) in *.
    set (st := or_default 1 c) in *.
    set (to0 := match b with None => -1 | Some e => clip (-1) (len - 1) (from_end len e) end) in *.
    assert (Hfr : -1 <= from <= len - 1) by (apply clip_range; lia).
    set (n := count_up (- from) (- to) (- st)).
    assert (Hcnt := count_down_spec from to st Hn). fold n in Hcnt.
    assert (Hcnt0 : forall k, (k < n)%nat <-> from + Z.of_nat k * st > to0).
    { intro k. rewrite Hcnt. destruct Hto2 as [E|E]; [|rewrite E; reflexivity].
      specialize (Hto3 E). nia. }
    rewrite Z.gtb_ltb. destruct (Z.ltb_spec 0 st); [lia|]. destruct (Z.ltb_spec st 0); [|lia].
    assert (Hnl : (n <= length l)%nat).
    { destruct n as [|n'] eqn:E; [lia|]. pose proof (Hcnt n'). nia. }
    assert (Hst : min_int64 <= st < 0) by (unfold in_int64 in Hs64; lia).
    destruct (loop_down l to st Hst Hto1 Hlen n (S (length l)) from acc Hcnt)
      as (xs & Hxs & g & Hg & Hgl & Hge); [fold len; lia|lia|].
    exists g, xs. split; [exact Hg|]. split; [exact Hgl|].
    split; [intro Hacc; destruct xs; [rewrite Hge; auto|]; intro; subst g; simpl in Hgl;
            apply (app_cons_not_nil _ _ _ Hgl)|].
    assert (Hpos : slice_positions len a b c (progression from st n)).
    { apply SlDown; auto. }
    split.
    + intros (ps & i & Hps & Hi).
      pose proof (positions_fun _ _ _ _ _ _ Hpos Hps) as E. fold st in Hi.
      destruct n as [|n']; [destruct ps; discriminate E|].
      rewrite progression_last in E. apply app_inj_tail in E as [_ <-].
      unfold len in *. nia.
    + econstructor; eauto.
  - (* zero *)
    left. assert (Hc0 : c = Some 0) by (destruct c; simpl in Hz; [congruence|discriminate]).
    assert (E : exists s0 e0, sliceEval s len = (s0, e0, 0)).
    { unfold sliceEval. replace (match sl_stride s with Some b => cvi_bound b | None => 1 end) with 0.
      2:{ rewrite <- Ec in Hc0. unfold bound_int in Hc0. destruct (sl_stride s); simpl in Hc0; [|discriminate].
          injection Hc0 as ->. reflexivity. }
      simpl. eauto. }
    destruct E as (s0 & e0 & ->). simpl. exists acc, []. split; [reflexivity|].
    split; [symmetry; apply app_nil_r|]. split; [auto|].
    assert (Hpos : slice_positions len a b c []) by (apply SlZero; auto).
    split.
    + intros (ps & i & Hps & Hi). pose proof (positions_fun _ _ _ _ _ _ Hpos Hps) as E.
      destruct ps; discriminate E.
    + econstructor; [exact Hpos|constructor].
  - (* ascending *)
    rewrite (sliceEval_up s len); rewrite ?Ea, ?Eb, ?Ec in *; auto; try lia.
    set (from := clip 0 len (from_end len (or_default 0 a))) in *.
    set (to := clip 0 len (from_end len (or_default len b))) in *.
    set (st := or_default 1 c) in *.
    assert (Hfr : 0 <= from <= len) by (apply clip_range; lia).
    assert (Htr : 0 <= to <= len) by (apply clip_range; lia).
    set (n := count_up from to st).
    assert (Hcnt := count_up_spec from to st Hp). fold n in Hcnt.
    rewrite Z.gtb_ltb. destruct (Z.ltb_spec 0 st); [|lia].
    assert (Hnl : (n <= length l)%nat).
    { destruct n as [|n'] eqn:E; [lia|]. pose proof (Hcnt n'). nia. }
    assert (Hpos : slice_positions len a b c (progression from st n)).
    { apply SlUp; auto. }
    assert (Hst : 0 < st <= max_int64) by (unfold in_int64 in Hs64; lia).
    assert (Hto : to <= Z.of_nat (length l) <= max_int64) by (fold len; lia).
    destruct n as [|n'] eqn:En.
    + left. destruct (loop_up l to st Hst Hto 0 (S (length l)) from acc Hcnt)
        as (xs & Hxs & g & Hg & Hgl & Hge); [lia|lia|intros k Hk; lia|].
      inversion Hxs; subst. exists g, []. split; [exact Hg|]. split; [exact Hgl|].
      split; [rewrite Hge; auto|]. split.
      * intros (ps & i & Hps & Hi). pose proof (positions_fun _ _ _ _ _ _ Hpos Hps) as E.
        destruct ps; discriminate E.
      * econstructor; eauto.
    + destruct (Z_le_gt_dec (from + Z.of_nat n' * st + st) max_int64) as [Hle|Hgt].
      * left. destruct (loop_up l to st Hst Hto (S n') (S (length l)) from acc Hcnt)
          as (xs & Hxs & g & Hg & Hgl & Hge); [lia|lia|intros k Hk; nia|].
        exists g, xs. split; [exact Hg|]. split; [exact Hgl|].
        split; [intro Hacc; destruct xs; [rewrite Hge; auto|]; intro; subst g; simpl in Hgl;
            apply (app_cons_not_nil _ _ _ Hgl)|].
        split; [|econstructor; eauto].
        intros (ps & i & Hps & Hi). pose proof (positions_fun _ _ _ _ _ _ Hpos Hps) as E.
        rewrite progression_last in E. apply app_inj_tail in E as [_ <-]. fold st in Hi. lia.
      * right. split.
        -- eapply loop_up_overflow with (n := n'); eauto; lia.
        -- exists (progression from st n'), (from + Z.of_nat n' * st).
           rewrite progression_last in Hpos. split; [exact Hpos|]. exact Hgt.
Qed.
