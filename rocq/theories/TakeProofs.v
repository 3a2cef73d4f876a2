(** The machine gives what the short evaluator with slices gives. *)
From Coq Require Import Permutation.
From Verif Require Import Base Syntax SpecSyntax Value Machine Parser Api SpecDoc DocProofs SpecSelect SpecRun SpecOp SpecText SpecSem SpecLaws
  SpecOnce SpecFind SpecTake WalkProofs SelectFinal SliceProofs StepProofs StepExact TextProofs SemFinal UniquePath ReachProofs FindProofs.
Local Open Scope Z_scope.

(** ** Slices *)
Lemma up_count : forall from to s, 0 < s -> forall k, (k < Z.to_nat ((to - from + s - 1) / s))%nat <-> from + Z.of_nat k * s < to.
Proof.
  intros from to s Hs k. pose proof (Z.div_mod (to - from + s - 1) s ltac:(lia)) as D. pose proof (Z.mod_pos_bound (to - from + s - 1) s Hs) as B.
  set (q := (to - from + s - 1) / s) in *. split; intro H.
  - assert (K : Z.of_nat k + 1 <= q) by lia. nia.
  - assert (K : Z.of_nat k < q) by nia. lia.
Qed.
Lemma down_count : forall from to s, s < 0 -> forall k, (k < Z.to_nat ((from - to - s - 1) / - s))%nat <-> from + Z.of_nat k * s > to.
Proof.
  intros from to s Hs k. pose proof (Z.div_mod (from - to - s - 1) (- s) ltac:(lia)) as D. pose proof (Z.mod_pos_bound (from - to - s - 1) (- s) ltac:(lia)) as B.
  set (q := (from - to - s - 1) / - s) in *. split; intro H.
  - assert (K : Z.of_nat k + 1 <= q) by lia. nia.
  - assert (K : Z.of_nat k < q) by nia. lia.
Qed.
Lemma slice_at_ok : forall len a b c, slice_positions len a b c (slice_at len a b c).
Proof.
  intros len a b c. unfold slice_at. destruct (Z.ltb_spec 0 (or_default 1 c)); [apply SlUp; auto using up_count|].
  destruct (Z.ltb_spec (or_default 1 c) 0); [apply SlDown; auto using down_count|].
  apply SlZero. destruct c as [z|]; cbn in *; [f_equal; lia|lia].
Qed.
Lemma too_far_ok : forall len a b c, too_far len a b c = true <-> overflowing len a b c.
Proof.
  intros len a b c. unfold too_far, overflowing. pose proof (slice_at_ok len a b c) as K. split.
  - intro H. destruct (rev (slice_at len a b c)) as [|i r] eqn:E; [discriminate|]. exists (rev r), i. split.
    + apply (f_equal (@rev Z)) in E. rewrite rev_involutive in E. cbn in E. rewrite <- E. exact K.
    + apply Z.ltb_lt in H. lia.
  - intros (ps & i & P & H). rewrite (positions_fun _ _ _ _ _ _ K P). rewrite rev_app_distr. cbn. apply Z.ltb_lt. lia.
Qed.
Lemma elems_found : forall l ps, Forall (fun i => 0 <= i < Z.of_nat (length l)) ps ->
  Forall2 (elem l) ps (flat_map (fun i => match nth_error l (Z.to_nat i) with Some x => [x] | None => [] end) ps).
Proof.
  intros l ps H. induction H as [|i ps Hi H IH]; [constructor|]. cbn [flat_map]. destruct (nth_error l (Z.to_nat i)) as [x|] eqn:E.
  - constructor; [split; [lia|exact E]|exact IH].
  - apply nth_error_None in E. lia.
Qed.

(** ** Arguments *)
Definition sel_for (back : bool) (a : pval) : sel :=
  match a with
  | PInt n => SIndex back n
  | PName k | PStr k => SName k
  | PSlice sl => SSlice (written_bound (sl_start sl)) (written_bound (sl_end sl)) (written_bound (sl_stride sl))
  | PExpr _ => SName []
  end.

Lemma args_for : forall W root dot back args, Forall exprless args -> args_mean W root dot back args (OK (map (sel_for back) args)).
Proof.
  intros W root dot back args H.
  assert (E : map (sel_for back) args = flat_map (fun o => match o with Some s => [s] | None => [] end) (map (fun a => Some (sel_for back a)) args)).
  { clear H. induction args as [|a args IH]; [reflexivity|]. cbn. f_equal. exact IH. }
  rewrite E. apply AsOK. clear E. induction H as [|a args Ha H IH]; constructor; [|exact IH]. destruct a; try destruct Ha; constructor.
Qed.

Lemma name_picked : forall s v, doc v -> picks_name s v (match v with VObj m => member s m | _ => [] end).
Proof.
  intros s v Hd. destruct v; try (apply PnOther; reflexivity).
  destruct (in_dec (list_eq_dec Z.eq_dec) s (map fst m)) as [Hi|Hi].
  - apply in_map_iff in Hi as ([k x] & E & Hi). cbn in E. subst k. rewrite (member_in s m x); [apply PnMember; exact Hi| |exact Hi].
    exact (proj1 (Hd _ (WSelf _))).
  - rewrite member_none by exact Hi. apply PnMissing. exact Hi.
Qed.

Lemma arg_picked : forall back v a, literal_key a -> doc v -> picks (sel_for back a) v (find_arg back v a).
Proof.
  intros back v a Ha Hd. destruct a as [n|s|s| |]; try destruct Ha; cbn [sel_for].
  - assert (N : IsArray v = false -> find_arg back v (PInt n) = match v with VObj m => member (decimal n) m | _ => [] end).
    { intro K. destruct v; try reflexivity; discriminate. }
    destruct (IsArray v) eqn:K; [|rewrite N by reflexivity; apply PkNumber; [exact K|apply name_picked; exact Hd]].
    destruct v as [| | | | | | |l| | | | |]; try discriminate. cbn [find_arg]. clear N K.
    assert (I : let i := (if back && (n <? 0) then n + Z.of_nat (length l) else n) in
      0 <= i -> i = n \/ (back = true /\ n < 0 /\ i = n + Z.of_nat (length l))).
    { cbv zeta. destruct back; cbn; [|lia]. destruct (Z.ltb_spec n 0); lia. }
    assert (J : let i := (if back && (n <? 0) then n + Z.of_nat (length l) else n) in
      i < 0 \/ Z.of_nat (length l) <= i -> Z.of_nat (length l) <= n \/ n < 0 /\ (back = true -> n + Z.of_nat (length l) < 0)).
    { cbv zeta. destruct back; cbn; [|intuition lia]. destruct (Z.ltb_spec n 0); intuition lia. }
    cbv zeta in *. set (i := if back && (n <? 0) then n + Z.of_nat (length l) else n) in *.
    destruct (Z.ltb_spec i 0); [apply PkRange; auto|]. destruct (nth_error l (Z.to_nat i)) eqn:E.
    + eapply PkElem; [apply I; assumption|split; assumption].
    + apply nth_error_None in E. apply PkRange. apply J. right. lia.
  - apply PkName. pose proof (name_picked s v Hd) as P. destruct v; exact P.
  - apply PkName. pose proof (name_picked s v Hd) as P. destruct v; exact P.
Qed.

Lemma arg_taken : forall back v a, exprless a -> doc v ->
  match take_arg back v a with
  | Some l => picks (sel_for back a) v l /\ ~ discards (sel_for back a, v)
  | None => discards (sel_for back a, v)
  end.
Proof.
  intros back v a Ha Hd.
  destruct a as [n|s|s|sl|e]; try destruct Ha; try (cbn [take_arg]; split; [apply arg_picked; [exact I|exact Hd]|intro K; exact K]).
  cbn [take_arg sel_for]. destruct v as [| | | | | | |l| | | | |]; try reflexivity. split; [|intro K; discriminate K].
  eapply PkSlice; [apply slice_at_ok|]. apply elems_found. rewrite Forall_forall. intros i Hi. unfold sliced in Hi.
  eapply positions_range; [lia|apply slice_at_ok|exact Hi].
Qed.
Lemma arg_breaks : forall back v a, breaks v a = true <-> app_overflows (sel_for back a, v).
Proof.
  intros back v a. destruct a as [n|s|s|sl|e]; try (cbn; split; intro K; [discriminate K|destruct K]).
  cbn [breaks sel_for app_overflows]. destruct v; try (cbn; split; intro K; [discriminate K|destruct K]). apply too_far_ok.
Qed.

(** ** Steps *)
Definition fits_app (x : option (list val) * (sel * val)) : Prop :=
  match fst x with Some l => picks (fst (snd x)) (snd (snd x)) l /\ ~ discards (snd x) | None => discards (snd x) end.

Lemma remember_kept : forall os apps, Forall2 (fun o a => fits_app (o, a)) os apps -> forall got,
  (exists ls after before, apps = before ++ after /\ (before = [] \/ exists b a, before = b ++ [a] /\ discards a) /\
    Forall (fun a => ~ discards a) after /\ Forall2 (fun a l => picks (fst a) (snd a) l) after ls /\
    fold_left (fun got o => match o with Some l => got ++ l | None => [] end) os got = (match before with [] => got | _ => [] end) ++ concat ls).
Proof.
  intros os apps F. induction F as [|o a os apps H F IH]; intros got.
  - exists [], [], []. cbn. rewrite app_nil_r. auto 8.
  - unfold fits_app in H. cbn [fst snd] in H. cbn [fold_left]. destruct o as [l|].
    + destruct H as [H1 H2]. destruct (IH (got ++ l)) as (ls & after & before & -> & B & A & P & E). destruct before as [|b before].
      * exists (l :: ls), (a :: after), []. cbn [app concat]. rewrite E, <- app_assoc. cbn. auto 10.
      * exists ls, after, (a :: b :: before). split; [reflexivity|]. split; [|auto].
        right. destruct B as [B|(b' & x & B & D)]; [discriminate|]. exists (a :: b'), x. rewrite B. auto.
    + destruct (IH []) as (ls & after & before & -> & B & A & P & E). exists ls, after, (a :: before). split; [reflexivity|].
      split; [|split; [exact A|split; [exact P|rewrite E; destruct before; reflexivity]]].
      right. destruct B as [->|(b' & x & -> & D)]; [exists [], a; auto|exists (a :: b'), x; auto].
Qed.
Lemma remember_collects : forall os apps, Forall2 (fun o a => fits_app (o, a)) os apps -> collects apps (remembered os).
Proof.
  intros os apps F. destruct (remember_kept _ _ F []) as (ls & after & before & -> & B & A & P & E). exists before, after.
  split; [reflexivity|]. split; [exact B|]. split; [exact A|]. exists ls. split; [exact P|]. unfold remembered. rewrite E. destruct before; reflexivity.
Qed.

Lemma taken_apps : forall back args vs, Forall exprless args -> Forall doc vs ->
  Forall2 (fun o a => fits_app (o, a)) (flat_map (fun v => map (take_arg back v) args) vs) (applications (map (sel_for back) args) vs).
Proof.
  intros back args vs Ha Hv. unfold applications. induction Hv as [|v vs Hd Hv IH]; [constructor|]. cbn [flat_map].
  apply Forall2_app; [|exact IH]. clear IH Hv. induction Ha as [|a args Ha Has IH]; constructor; [|exact IH].
  pose proof (arg_taken back v a Ha Hd) as P. unfold fits_app. cbn [fst snd]. destruct (take_arg back v a); exact P.
Qed.
Lemma broken_apps : forall back args vs, existsb (fun v => existsb (breaks v) args) vs = true <-> Exists app_overflows (applications (map (sel_for back) args) vs).
Proof.
  intros back args vs. rewrite existsb_exists, Exists_exists. unfold applications. split.
  - intros (v & Hv & H). apply existsb_exists in H as (a & Ha & H). exists (sel_for back a, v). split; [|apply arg_breaks; exact H].
    apply in_flat_map. exists v. split; [exact Hv|]. rewrite map_map. apply in_map_iff. exists a. auto.
  - intros (x & Hx & H). apply in_flat_map in Hx as (v & Hv & Hx). rewrite map_map in Hx. apply in_map_iff in Hx as (a & <- & Ha).
    exists v. split; [exact Hv|]. apply existsb_exists. exists a. split; [exact Ha|]. apply (arg_breaks back). exact H.
Qed.
Lemma whole_apps : forall back args vs, existsb (fun v => existsb (breaks v) args) vs = false -> Forall (fun a => ~ app_overflows a) (applications (map (sel_for back) args) vs).
Proof.
  intros back args vs H. apply Forall_forall. intros x Hx K. assert (E : existsb (fun v => existsb (breaks v) args) vs = true); [|congruence].
  apply (broken_apps back). apply Exists_exists. eauto.
Qed.

Lemma sweep_apps : forall W root back args dots, Forall exprless args ->
  sweeps W root back args dots (if existsb (fun v => existsb (breaks v) args) dots then Panics else OK (applications (map (sel_for back) args) dots)).
Proof.
  intros W root back args dots Ha. induction dots as [|d dots IH]; [constructor|]. cbn [existsb].
  pose proof (args_for W root d back args Ha) as Am. destruct (existsb (breaks d) args) eqn:E; cbn [orb].
  - eapply SwOverflow; [exact Am|]. apply broken_apps. cbn. rewrite E. reflexivity.
  - assert (N : Forall (fun a => ~ app_overflows a) (applications (map (sel_for back) args) [d])) by (apply whole_apps; cbn; rewrite E; reflexivity).
    pose proof (SwDot W root back args d dots _ _ Am N IH) as S. destruct (existsb _ dots); [exact S|].
    cbn [obind] in S. unfold applications in *. cbn [flat_map] in *. rewrite app_nil_r in S. exact S.
Qed.

Lemma children_taken : forall vs, gathers children_in_order vs (flat_map offspring vs).
Proof.
  intros vs. exists (map offspring vs). split; [|rewrite flat_map_concat_map; reflexivity].
  induction vs as [|v vs IH]; constructor; [|exact IH]. destruct v; cbn; try (apply CiOther; reflexivity); [apply CiArr|apply CiObj, Permutation_refl].
Qed.
Lemma walks_taken : forall v, walks v (containers v).
Proof.
  fix go 1. intro v. destruct v as [| | | | | | |l|m| | | |]; try (apply WkOther; reflexivity); cbn [containers].
  - rewrite flat_map_concat_map. apply WkArr. induction l as [|x l IH]; constructor; [apply go|exact IH].
  - rewrite flat_map_concat_map. apply (WkObj m m); [apply Permutation_refl|]. rewrite <- (map_map snd containers).
    induction m as [|[k x] m IH]; constructor; [apply go|exact IH].
Qed.
Lemma walks_all : forall vs, gathers walks vs (flat_map containers vs).
Proof.
  intros vs. exists (map containers vs). split; [|rewrite flat_map_concat_map; reflexivity].
  induction vs as [|v vs IH]; constructor; [apply walks_taken|exact IH].
Qed.
Lemma doc_sub : forall x v, doc v -> within x v -> doc x.
Proof. exact doc_within. Qed.
Lemma containers_doc : forall vs, Forall doc vs -> Forall doc (flat_map containers vs).
Proof. intros vs H. eapply gathers_closed; [exact doc_sub|exact walks_within|exact H|apply walks_all]. Qed.

(** the values a .. step starts from *)
Lemma rounds_taken : forall vs, exists dots, rounds walks vs dots /\ (dots = flat_map containers vs \/ (dots = [VNil] /\ flat_map containers vs = [])).
Proof.
  intros vs. destruct (flat_map containers vs) as [|x l] eqn:E.
  - destruct vs as [|v vs]; [exists []; split; [constructor|left; reflexivity]|]. exists [VNil]. split; [|right; auto].
    apply RdNull; [discriminate|]. rewrite <- E. apply walks_all.
  - exists (x :: l). split; [|left; reflexivity]. apply RdAll; [discriminate|]. rewrite <- E. apply walks_all.
Qed.

Definition as_run (o : option (list val)) : M (list val) := match o with Some l => OK l | None => Panics end.

Lemma select_taken : forall W root o args vs, is_select o = true -> Forall exprless args -> Forall doc vs ->
  step_means W root (mkStep o args) vs (as_run (take_step (mkStep o args) vs)).
Proof.
  intros W root o args vs Ho Ha Hd. pose proof (args_for W root VNil (counts_back o) args Ha) as Am.
  assert (E : take_step (mkStep o args) vs = if existsb (fun v => existsb (breaks v) args) vs then None
    else Some (remembered (flat_map (fun v => map (take_arg (counts_back o) v) args) vs))) by (destruct o; try discriminate Ho; reflexivity).
  rewrite E. destruct (existsb _ vs) eqn:B; cbn [as_run].
  - eapply SmOverflow; [exact Ho|exact Am|]. apply broken_apps. exact B.
  - eapply SmSelect; [exact Ho|exact Am|apply whole_apps; exact B|]. apply remember_collects. apply taken_apps; assumption.
Qed.
Lemma nest_taken : forall W root o args vs, is_nest_select o = true -> Forall exprless args -> Forall doc vs ->
  step_means W root (mkStep o args) vs (as_run (take_step (mkStep o args) vs)).
Proof.
  intros W root o args vs Ho Ha Hd.
  assert (E : take_step (mkStep o args) vs = if existsb (fun v => existsb (breaks v) args) (flat_map containers vs) then None
    else Some (remembered (flat_map (fun v => map (take_arg (counts_back o) v) args) (flat_map containers vs)))) by (destruct o; try discriminate Ho; reflexivity).
  rewrite E. destruct (rounds_taken vs) as (dots & R & D). pose proof (sweep_apps W root (counts_back o) args dots Ha) as S.
  destruct D as [->|[-> N]].
  - destruct (existsb _ (flat_map containers vs)); cbn [as_run].
    + eapply SmNestOverflow; eauto.
    + eapply SmNest; eauto. apply remember_collects. apply taken_apps; [exact Ha|]. apply containers_doc. exact Hd.
  - rewrite N. cbn [existsb flat_map as_run].
    assert (B : existsb (fun v => existsb (breaks v) args) [VNil] = false).
    { cbn [existsb]. rewrite orb_false_r. clear. induction args as [|a args IH]; [reflexivity|]. cbn. rewrite IH. destruct a; reflexivity. }
    rewrite B in S. eapply SmNest; eauto.
    pose proof (remember_collects _ _ (taken_apps (counts_back o) args [VNil] Ha ltac:(constructor; [exact doc_nil|constructor]))) as C.
    rewrite (collects_null _ _ C) in C. exact C.
Qed.
Lemma step_taken : forall W root s vs, wf_step s -> Forall exprless (st_args s) -> Forall doc vs ->
  step_means W root s vs (as_run (take_step s vs)).
Proof.
  intros W root s vs Hs Ha Hd. destruct Hs; cbn [st_args] in Ha;
    try (apply select_taken; auto; fail); try (apply nest_taken; auto; fail); try (apply Forall_inv in Ha; destruct Ha; fail).
  - apply SmWild; [reflexivity|]. apply children_taken.
  - destruct (rounds_taken vs) as (dots & R & D). eapply SmNestWild; [reflexivity|exact R|]. unfold take_step. cbn [st_op is_nest].
    destruct D as [->|[-> N]]; [apply children_taken|]. rewrite N. apply (children_taken [VNil]).
Qed.
Lemma path_taken : forall W root ss vs, wf_path ss -> Forall (fun s => Forall exprless (st_args s)) ss -> Forall doc vs ->
  path_means W root ss vs (as_run (take_path ss vs)).
Proof.
  intros W root ss. induction ss as [|s ss IH]; intros vs Hw Ha Hd; [constructor|]. inversion Hw as [|? ? Hs Hw']; subst. inversion Ha as [|? ? Hsa Ha']; subst.
  pose proof (step_taken W root s vs Hs Hsa Hd) as S. cbn [take_path]. destruct (take_step s vs) as [l|]; cbn [as_run] in *; [|apply PmPanic; exact S].
  eapply PmStep; [exact S|]. apply IH; auto. eapply step_closed; [exact doc_nil|exact doc_sub|exact Hd|exact S].
Qed.

(** ** Uniqueness *)
Lemma args_for_fun : forall W root dot back args r, Forall exprless args -> args_mean W root dot back args r -> r = OK (map (sel_for back) args).
Proof.
  intros W root dot back args r Hl H. destruct H as [args os F|pre a post os err F Ha].
  - f_equal. induction F as [|a o args os Ha F IH]; [reflexivity|]. inversion Hl as [|? ? H1 H2]; subst. cbn [flat_map map]. rewrite IH by exact H2.
    inversion Ha; subst; try reflexivity; destruct H1.
  - apply Forall_app in Hl as [_ Hl]. apply Forall_inv in Hl. inversion Ha; subst. destruct Hl.
Qed.
Lemma direct_fun : forall W root s vs r r', is_select (st_op s) = true -> Forall exprless (st_args s) -> Forall doc vs ->
  step_means W root s vs r -> step_means W root s vs r' -> r = r'.
Proof.
  intros W root s vs r r' Ho Ha Hd H H'.
  assert (N : forall sels, Forall (fun a => json_node (snd a)) (applications sels vs)).
  { intro sels. unfold applications. apply Forall_forall. intros x Hx. apply in_flat_map in Hx as (v & Hv & Hx). apply in_map_iff in Hx as (y & <- & _).
    rewrite Forall_forall in Hd. apply (Hd v Hv). constructor. }
  inversion H; subst; try (destruct (st_op s); discriminate);
  inversion H'; subst; try (destruct (st_op s); discriminate);
    repeat match goal with A : args_mean _ _ _ _ _ _ |- _ => apply (args_for_fun _ _ _ _ _ _ Ha) in A; try discriminate A; injection A as ->  end;
    try reflexivity; try (exfalso; eapply none_some; eassumption).
  f_equal. eapply collects_fun; [|eassumption|eassumption]. apply N.
Qed.
Lemma direct_path_fun : forall W root ss vs r r', direct ss -> Forall (fun s => Forall exprless (st_args s)) ss -> Forall doc vs ->
  path_means W root ss vs r -> path_means W root ss vs r' -> r = r'.
Proof.
  intros W root ss. induction ss as [|s ss IH]; intros vs r r' Hw Ha Hd H H'.
  - inversion H; inversion H'; subst. congruence.
  - inversion Hw as [|? ? Hs Hw']; subst. inversion Ha as [|? ? Hsa Ha']; subst.
    inversion H; subst; inversion H'; subst;
    match goal with A : step_means _ _ _ _ ?x, B : step_means _ _ _ _ ?y |- _ =>
      pose proof (direct_fun W root s vs x y Hs Hsa Hd A B) as Q end; try discriminate Q; try reflexivity.
    + injection Q as ->. eapply IH; [exact Hw'|exact Ha'| |eassumption|eassumption].
      eapply step_closed; [exact doc_nil|exact doc_sub|exact Hd|eassumption].
    + congruence.
Qed.

Lemma text_taken : forall TX s ss jp W t root r, accepted TX s ss jp -> fits jp -> orders_ok W -> doc root ->
  Forall (fun s => Forall exprless (st_args s)) ss -> lone_members root \/ direct ss -> JP_Eval W t jp root r ->
  r = match take_path ss [root] with Some l => OK l | None => Panics end.
Proof.
  intros TX s ss jp W t root r Ha Hf HW Hd Hl L H. pose proof (text_means _ _ _ _ _ _ _ _ Ha Hf HW Hd H) as Hm.
  assert (Hw : wf_path ss) by (eapply text_wf; eauto). assert (D : Forall doc [root]) by (constructor; [exact Hd|constructor]).
  pose proof (path_taken W root ss [root] Hw Hl D) as P. destruct L as [L|L].
  - eapply path_fun; [split; [exact Hd|exact L]|exact Hw|constructor; [split; [exact Hd|exact L]|constructor]|exact Hm|exact P].
  - eapply direct_path_fun; [exact L|exact Hl|exact D|exact Hm|exact P].
Qed.
