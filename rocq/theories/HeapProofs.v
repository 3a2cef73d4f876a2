(** Proofs about evaluations that share storage. *)
From Coq Require Import Permutation.
From Verif Require Import SpecDoc DocProofs SpecRun SpecText WalkProofs StackProofs MachineProofs EvalProofs TextProofs Api Conc SpecConc ConcProofs Heap.
Local Open Scope Z_scope.

(** ** References *)
Lemma cells_same : forall h h' s, nth_error h' (s_addr s) = nth_error h (s_addr s) -> cells h' s = cells h s.
Proof. intros h h' s H. unfold cells. rewrite H. reflexivity. Qed.

Lemma val_struct_ind : forall (P : val -> Prop), (forall v, IsStructure v = false -> P v) -> (forall l, Forall P l -> P (VArr l)) ->
  (forall m, Forall (fun kv => P (snd kv)) m -> P (VObj m)) -> forall v, P v.
Proof. intros P H1 H2 H3 v. induction v using val_tree_ind; auto. Qed.

Lemma stands_atom : forall P h x v, IsStructure v = false -> stands P h x v -> x = HAtom v.
Proof. intros P h x v Hv H. destruct H; [reflexivity|discriminate|discriminate]. Qed.

Lemma stands_arr : forall P h x vs, stands P h x (VArr vs) -> exists s l, x = HArr s /\ P (s_addr s) /\ cells h s = Some l /\ Forall2 (stands P h) l vs.
Proof.
  intros P h x vs H. remember (VArr vs) as v eqn:E. destruct H as [v Hv|s l vs' Hp Hc Hf|a m vs' Hp Hc Hf]; [subst; discriminate| |discriminate].
  injection E as ->. exists s, l. auto.
Qed.

Lemma stands_obj : forall P h x vs, stands P h x (VObj vs) -> exists a m, x = HMap a /\ P a /\ nth_error h a = Some (BMap m) /\
  Forall2 (fun x y => fst x = fst y /\ stands P h (snd x) (snd y)) m vs.
Proof.
  intros P h x vs H. remember (VObj vs) as v eqn:E. destruct H as [v Hv|s l vs' Hp Hc Hf|a m vs' Hp Hc Hf]; [subst; discriminate|discriminate|].
  injection E as ->. exists a, m. auto.
Qed.

Lemma Forall2_impl_r : forall A B (R S : A -> B -> Prop) l l', Forall2 R l l' -> Forall (fun b => forall a, R a b -> S a b) l' -> Forall2 S l l'.
Proof. intros A B R S l l' H. induction H as [|a b l l' Hab H IH]; intro Hf; constructor; inversion Hf; subst; auto. Qed.

Lemma stands_move : forall (P Q : nat -> Prop) h h' v x, (forall a, P a -> Q a /\ nth_error h' a = nth_error h a) -> stands P h x v -> stands Q h' x v.
Proof.
  intros P Q h h' v x Hm. revert x. induction v as [v Hv|l IH|m IH] using val_struct_ind; intros x Hx.
  - rewrite (stands_atom _ _ _ _ Hv Hx). apply RpAtom. exact Hv.
  - destruct (stands_arr _ _ _ _ Hx) as (s & c & -> & Hp & Hc & Hf). destruct (Hm _ Hp) as [Hq He].
    eapply RpArr; [exact Hq|rewrite (cells_same _ _ _ He); exact Hc|]. eapply Forall2_impl_r; [exact Hf|]. eapply Forall_impl; [|exact IH]. cbn. auto.
  - destruct (stands_obj _ _ _ _ Hx) as (a & c & -> & Hp & Hc & Hf). destruct (Hm _ Hp) as [Hq He].
    eapply RpMap; [exact Hq|rewrite He; exact Hc|]. eapply Forall2_impl_r; [exact Hf|]. eapply Forall_impl; [|exact IH]. cbn. intros y Hy z [Hk Hz]. auto.
Qed.

Lemma Forall2_fun : forall A B (R S : A -> B -> Prop) l l1, Forall2 R l l1 -> forall l2, Forall2 S l l2 ->
  Forall (fun b => forall a b', R a b -> S a b' -> b = b') l1 -> l1 = l2.
Proof.
  intros A B R S l l1 H. induction H as [|a b l l1 Hab H IH]; intros l2 H2 Hf; inversion H2; subst; auto.
  inversion Hf; subst. f_equal; eauto.
Qed.

Lemma stands_fun : forall P Q h v x v', stands P h x v -> stands Q h x v' -> v = v'.
Proof.
  intros P Q h v. induction v as [v Hv|l IH|m IH] using val_struct_ind; intros x v' H1 H2.
  - pose proof (stands_atom _ _ _ _ Hv H1) as ->. inversion H2; auto.
  - destruct (stands_arr _ _ _ _ H1) as (s & c & -> & _ & Hc & Hf). inversion H2 as [|s' l' vs' Hp' Hc' Hf'|]; subst.
    rewrite Hc in Hc'. injection Hc' as <-. f_equal. eapply Forall2_fun; [exact Hf|exact Hf'|]. eapply Forall_impl; [|exact IH]. cbn. eauto.
  - destruct (stands_obj _ _ _ _ H1) as (a & c & -> & _ & Hc & Hf). inversion H2 as [| |a' m' vs' Hp' Hc' Hf']; subst.
    rewrite Hc in Hc'. injection Hc' as <-. f_equal. eapply Forall2_fun; [exact Hf|exact Hf'|]. eapply Forall_impl; [|exact IH]. cbn.
    intros [k b] Hb [k1 y] [k2 b'] [Hk1 Hy1] [Hk2 Hy2]. cbn in *. subst. f_equal. eauto.
Qed.

Lemma stands_any : forall P h x v, stands P h x v -> stands any h x v.
Proof. intros P h x v H. eapply stands_move; [|exact H]. intros; split; [exact I|reflexivity]. Qed.

Lemma Forall2_in_l : forall A B (R : A -> B -> Prop) l l' a, Forall2 R l l' -> In a l -> exists b, In b l' /\ R a b.
Proof.
  intros A B R l l' a H. induction H as [|x y l l' Hxy H IH]; intros Hin; [contradiction|]. destruct Hin as [<-|Hin]; [exists y; split; [left; reflexivity|exact Hxy]|].
  destruct (IH Hin) as (b & Hb & Hr). exists b. split; [right; exact Hb|exact Hr].
Qed.

Lemma stands_reaches : forall (P : nat -> Prop) h x a, reaches h x a -> forall v, stands P h x v -> P a.
Proof.
  intros P h x a H. induction H as [s|s l x a Hc Hin H IH|a|b m k x a Hb Hin H IH]; intros v Hv.
  - inversion Hv; subst; auto.
  - inversion Hv as [|s' l' vs' Hp' Hc' Hf'|]; subst. rewrite Hc in Hc'. injection Hc' as <-. destruct (Forall2_in_l _ _ _ _ _ _ Hf' Hin) as (w & _ & Hw). eauto.
  - inversion Hv; subst; auto.
  - inversion Hv as [| |a' m' vs' Hp' Hc' Hf']; subst. rewrite Hb in Hc'. injection Hc' as <-. destruct (Forall2_in_l _ _ _ _ _ _ Hf' Hin) as (w & _ & _ & Hw). eauto.
Qed.

Lemma Forall2_impl_both : forall A B (R S : A -> B -> Prop) l l', Forall2 R l l' -> (forall a b, In a l -> In b l' -> R a b -> S a b) -> Forall2 S l l'.
Proof.
  intros A B R S l l' H. induction H as [|a b l l' Hab H IH]; intro Hf; constructor.
  - apply Hf; [left; reflexivity|left; reflexivity|exact Hab].
  - apply IH. intros x y Hx Hy. apply Hf; right; assumption.
Qed.

Lemma stands_self : forall P h v x, stands P h x v -> stands (reaches h x) h x v.
Proof.
  intros P h v. induction v as [v Hv|l IH|m IH] using val_struct_ind; intros x Hx.
  - rewrite (stands_atom _ _ _ _ Hv Hx). apply RpAtom. exact Hv.
  - destruct (stands_arr _ _ _ _ Hx) as (s & c & -> & Hp & Hc & Hf). eapply RpArr; [constructor|exact Hc|].
    eapply Forall2_impl_both; [exact Hf|]. intros y w Hy Hw Hr. rewrite Forall_forall in IH. eapply stands_move; [|apply (IH _ Hw); exact Hr].
    intros a Ha. split; [|reflexivity]. eapply RcElem; eauto.
  - destruct (stands_obj _ _ _ _ Hx) as (b & c & -> & Hp & Hc & Hf). eapply RpMap; [constructor|exact Hc|].
    eapply Forall2_impl_both; [exact Hf|]. intros [k y] w Hy Hw [Hk Hr]. split; [exact Hk|]. rewrite Forall_forall in IH. eapply stands_move; [|apply (IH _ Hw); exact Hr].
    intros a Ha. split; [|reflexivity]. eapply RcMember; eauto.
Qed.

(** ** How the store changes *)
Definition free (h : heap) (R : nat -> Prop) (a : nat) : Prop := (a < length h)%nat /\ ~ R a.
Definition moves (A A' : nat -> Prop) (h h' : heap) : Prop :=
  (length h <= length h')%nat /\ (forall a, (a < length h)%nat -> ~ A a -> nth_error h' a = nth_error h a) /\
  (forall a, A' a -> A a \/ (length h <= a < length h')%nat).

Lemma moves_trans : forall A B C h1 h2 h3, moves A B h1 h2 -> moves B C h2 h3 -> moves A C h1 h3.
Proof.
  intros A B C h1 h2 h3 (H1 & H2 & H3) (G1 & G2 & G3). split; [lia|]. split.
  - intros a Ha Hn. rewrite G2; [auto|lia|]. intro Hb. destruct (H3 _ Hb) as [|]; [contradiction|lia].
  - intros a Ha. destruct (G3 _ Ha) as [Hb|Hb]; [destruct (H3 _ Hb); [left; assumption|right; lia]|right; lia].
Qed.

Lemma moves_sub : forall (A A' B : nat -> Prop) h h', moves A A' h h' -> (forall a, A a -> B a) -> moves B (fun a => A' a \/ B a) h h'.
Proof.
  intros A A' B h h' (H1 & H2 & H3) Hs. split; [exact H1|]. split.
  - intros a Ha Hn. apply H2; auto.
  - intros a [Ha|Ha]; [destruct (H3 _ Ha); auto|auto].
Qed.

Lemma moves_less : forall (A A' B' : nat -> Prop) h h', moves A A' h h' -> (forall a, B' a -> A' a) -> moves A B' h h'.
Proof. intros A A' B' h h' (H1 & H2 & H3) Hs. split; [exact H1|]. split; auto. Qed.

Lemma moves_more : forall (A A' B : nat -> Prop) h h', moves A A' h h' -> (forall a, A a -> B a) -> moves B A' h h'.
Proof. intros A A' B h h' (H1 & H2 & H3) Hs. split; [exact H1|]. split; auto. intros a Ha. destruct (H3 _ Ha); auto. Qed.

Lemma moves_refl : forall A h, moves A A h h.
Proof. intros A h. split; [lia|]. split; auto. Qed.

Lemma moves_new : forall A h new, moves A A h (h ++ new).
Proof.
  intros A h new. split; [rewrite app_length; lia|]. split; auto. intros a Ha _. apply nth_error_app1. exact Ha.
Qed.

Lemma moves_alloc : forall A h b, moves A (fun a => A a \/ a = length h) h (h ++ [b]).
Proof.
  intros A h b. split; [rewrite app_length; lia|]. split.
  - intros a Ha _. apply nth_error_app1. exact Ha.
  - intros a [Ha| ->]; [auto|]. right. rewrite app_length. cbn. lia.
Qed.

Lemma free_moves : forall (A A' R R' : nat -> Prop) h h' a, moves A A' h h' -> (forall a, A a -> R a) -> (forall a, R' a -> (a < length h)%nat -> R a) ->
  free h R a -> free h' R' a /\ nth_error h' a = nth_error h a.
Proof.
  intros A A' R R' h h' a (H1 & H2 & H3) Hs Hr [Ha Hn]. split.
  - split; [lia|]. intro. apply Hn. auto.
  - apply H2; [exact Ha|]. intro. apply Hn. auto.
Qed.

Lemma stands_moves : forall (A A' R R' : nat -> Prop) h h' x v, moves A A' h h' -> (forall a, A a -> R a) -> (forall a, R' a -> (a < length h)%nat -> R a) ->
  stands (free h R) h x v -> stands (free h' R') h' x v.
Proof. intros. eapply stands_move; [|eassumption]. intros a Ha. eapply free_moves; eauto. Qed.

Lemma stands_all_moves : forall (A A' R R' : nat -> Prop) h h' xs vs, moves A A' h h' -> (forall a, A a -> R a) -> (forall a, R' a -> (a < length h)%nat -> R a) ->
  Forall2 (stands (free h R) h) xs vs -> Forall2 (stands (free h' R') h') xs vs.
Proof. intros A A' R R' h h' xs vs Hm Hs Hr H. induction H; constructor; auto. eapply stands_moves; eauto. Qed.

(** ** Appending *)
Definition addrs (s : option slc) (a : nat) : Prop := In a (addr_of s).
(** the elements of a slice that may be nil *)
Definition elems (h : heap) (s : option slc) (l : list hval) : Prop :=
  match s with None => l = [] | Some s => cells h s = Some l end.

Lemma cells_bound : forall h s l, cells h s = Some l -> (s_addr s < length h)%nat.
Proof. intros h s l H. unfold cells in H. apply nth_error_Some. destruct (nth_error h (s_addr s)); [discriminate|discriminate H]. Qed.

Lemma cells_length : forall h s l, cells h s = Some l -> length l = s_len s.
Proof.
  intros h s l H. unfold cells in H. destruct (nth_error h (s_addr s)) as [[b| |]|]; try discriminate.
  destruct (Nat.leb_spec (s_off s + s_cap s) (length b)); [|discriminate]. destruct (Nat.leb_spec (s_len s) (s_cap s)); [|discriminate].
  injection H as <-. rewrite firstn_length, skipn_length. lia.
Qed.

Lemma set_nth_len : forall A (l : list A) i x, length (set_nth i x l) = length l.
Proof. intros. apply length_set_nth. Qed.

Lemma set_nth_app2 : forall A (a : list A) i x b, set_nth (length a + i) x (a ++ b) = a ++ set_nth i x b.
Proof. induction a as [|y a IH]; intros i x b; [reflexivity|]. cbn. rewrite IH. reflexivity. Qed.

Lemma firstn_set_nth : forall A (l : list A) n x, (n < length l)%nat -> firstn (S n) (set_nth n x l) = firstn n l ++ [x].
Proof.
  induction l as [|y l IH]; intros [|n] x H; cbn in *; try lia; [reflexivity|]. rewrite <- IH by lia. reflexivity.
Qed.

Lemma firstn_set_nth_in : forall A (l : list A) i n x, (i < n)%nat -> firstn n (set_nth i x l) = set_nth i x (firstn n l).
Proof.
  induction l as [|y l IH]; intros [|i] [|n] x H; try lia; cbn; try reflexivity. rewrite IH by lia. reflexivity.
Qed.

Lemma skipn_set_nth : forall A (l : list A) o i x, skipn o (set_nth (o + i) x l) = set_nth i x (skipn o l).
Proof.
  induction l as [|y l IH]; intros [|o] i x; try reflexivity; [destruct i; reflexivity|]. cbn. apply IH.
Qed.

Lemma nth_error_set_same : forall A (l : list A) i x, (i < length l)%nat -> nth_error (set_nth i x l) i = Some x.
Proof.
  intros A l i x H. rewrite nth_error_set_nth, Nat.eqb_refl. destruct (nth_error l i) eqn:E; [reflexivity|]. apply nth_error_None in E. lia.
Qed.

Lemma nth_error_last : forall A (l : list A) x, nth_error (l ++ [x]) (length l) = Some x.
Proof. intros. rewrite nth_error_app2, Nat.sub_diag by lia. reflexivity. Qed.

Lemma append_ok : forall h v s h' s' l, h_append h v s h' s' -> elems h s l ->
  cells h' s' = Some (l ++ [v]) /\ moves (addrs s) (addrs (Some s')) h h'.
Proof.
  intros h v s h' s' l H Hl. destruct H as [n|s b Hb Hlt|s b n Hb Heq].
  - cbn in Hl. subst l. split.
    + unfold cells. cbn [s_addr s_off s_len s_cap]. rewrite nth_error_last. cbn [length]. rewrite repeat_length, !Nat.leb_refl. reflexivity.
    + eapply moves_less; [apply moves_alloc|]. intros a [<-|[]]. right. reflexivity.
  - cbn in Hl. unfold cells in Hl. rewrite Hb in Hl. destruct (Nat.leb_spec (s_off s + s_cap s) (length b)) as [Hc|]; [|discriminate].
    destruct (Nat.leb_spec (s_len s) (s_cap s)); [|discriminate]. injection Hl as <-.
    assert (Ha : (s_addr s < length h)%nat) by (apply nth_error_Some; congruence). split.
    + unfold cells. cbn [s_addr s_off s_len s_cap]. rewrite nth_error_set_same by exact Ha. rewrite set_nth_len.
      destruct (Nat.leb_spec (s_off s + s_cap s) (length b)); [|lia]. destruct (Nat.leb_spec (S (s_len s)) (s_cap s)); [|lia]. cbn [andb]. f_equal.
      rewrite skipn_set_nth. apply firstn_set_nth. rewrite skipn_length. lia.
    + split; [rewrite set_nth_len; lia|]. split.
      * intros a Ha' Hn. rewrite nth_error_set_nth. destruct (Nat.eqb_spec (s_addr s) a) as [<-|]; [|reflexivity]. exfalso. apply Hn. left. reflexivity.
      * intros a [<-|[]]. left. left. reflexivity.
  - cbn in Hl. rewrite Hb in Hl. injection Hl as <-. pose proof (cells_length _ _ _ Hb) as Hlen. split.
    + unfold cells. cbn [s_addr s_off s_len s_cap]. rewrite nth_error_last, app_length. cbn [length]. rewrite repeat_length, Hlen.
      destruct (Nat.leb_spec (0 + S (s_len s + n)) (s_len s + S n)); [|lia]. destruct (Nat.leb_spec (S (s_len s)) (S (s_len s + n))); [|lia]. cbn [andb skipn]. f_equal.
      rewrite <- Hlen. replace (S (length b)) with (length b + 1)%nat by lia. rewrite firstn_app_2. reflexivity.
    + eapply moves_less; [apply moves_alloc|]. intros a [<-|[]]. right. reflexivity.
Qed.

Lemma appends_ok : forall h s xs h' s', h_appends h s xs h' s' -> forall l, elems h s l ->
  elems h' s' (l ++ xs) /\ moves (addrs s) (addrs s') h h' /\ (s' = None -> s = None /\ xs = []).
Proof.
  intros h s xs h' s' H. induction H as [h s|h s v r h1 s1 h2 s2 Ha H IH]; intros l Hl.
  - rewrite app_nil_r. split; [exact Hl|]. split; [apply moves_refl|auto].
  - destruct (append_ok _ _ _ _ _ _ Ha Hl) as [H1 H2]. destruct (IH (l ++ [v]) H1) as (H3 & H4 & H5).
    rewrite <- app_assoc in H3. split; [exact H3|]. split; [eapply moves_trans; eauto|]. intro E. destruct (H5 E). discriminate.
Qed.

(** ** The machine of one evaluation *)
Definition mine (m : hmach) : list nat := addr_of (h_out m) ++ addr_of (h_stk m) ++ addr_of (h_vals m).
Definition bad (O : nat -> Prop) (m : hmach) (a : nat) : Prop := O a \/ In a (mine m).
Definition ours (m : hmach) (a : nat) : Prop := In a (mine m).

(** [O]: the storage of others *)
Record sim (O : nat -> Prop) (h : heap) (m : hmach) (ma : mstate) (lv : list hval) : Prop := {
  si_m : stands_m (free h (bad O m)) h m ma;
  si_nd : NoDup (mine m);
  si_lt : forall a, In a (mine m) -> (a < length h)%nat /\ ~ O a;
  si_O : forall a, O a -> (a < length h)%nat;
  si_vals : elems h (h_vals m) lv
}.

Lemma nodup_app : forall A (a b : list A), NoDup (a ++ b) <-> NoDup a /\ NoDup b /\ forall x, In x a -> In x b -> False.
Proof.
  intros A a b. induction a as [|x a IH]; cbn [app].
  - split; [intro H; repeat split; [constructor|exact H|contradiction]|intros (_ & H & _); exact H].
  - rewrite !NoDup_cons_iff, IH, in_app_iff. split.
    + intros (Hx & Ha & Hb & Hd). repeat split; auto. intros y [<-|Hy] Hy'; eauto.
    + intros ((Hx & Ha) & Hb & Hd). split; [|repeat split; eauto].
      * intros [?|?]; [auto|]. eapply Hd; [left; reflexivity|assumption].
      * intros y Hy Hy'. eapply Hd; [right; exact Hy|exact Hy'].
Qed.

Lemma addr_nodup : forall s, NoDup (addr_of s).
Proof. intros [s|]; repeat constructor. intros []. Qed.

Lemma nodup_mid : forall (a b b' c : list nat) n, NoDup (a ++ b ++ c) -> (forall x, In x (a ++ b ++ c) -> (x < n)%nat) -> NoDup b' ->
  (forall x, In x b' -> In x b \/ (n <= x)%nat) -> NoDup (a ++ b' ++ c).
Proof.
  intros a b b' c n H Hn Hb Hx. apply nodup_app in H as (Ha & Hbc & Hd). apply nodup_app in Hbc as (_ & Hc & Hd2).
  apply nodup_app. split; [exact Ha|]. split.
  - apply nodup_app. split; [exact Hb|]. split; [exact Hc|]. intros x H1 H2. destruct (Hx _ H1) as [H3|H3]; [eauto|].
    assert (x < n)%nat by (apply Hn; rewrite !in_app_iff; auto). lia.
  - intros x H1 H2. apply in_app_iff in H2 as [H2|H2].
    + destruct (Hx _ H2) as [H3|H3]; [eapply Hd; [exact H1|apply in_app_iff; auto]|]. assert (x < n)%nat by (apply Hn; rewrite !in_app_iff; auto). lia.
    + eapply Hd; [exact H1|apply in_app_iff; auto].
Qed.

Lemma bad_moves : forall O m m' h h', moves (ours m) (ours m') h h' -> forall a, bad O m' a -> (a < length h)%nat -> bad O m a.
Proof. intros O m m' h h' (H1 & H2 & H3) a [Ha|Ha] Hl; [left; exact Ha|]. destruct (H3 _ Ha); [right; assumption|lia]. Qed.

Lemma stands_ours : forall O m m' h h' x v, moves (ours m) (ours m') h h' -> stands (free h (bad O m)) h x v -> stands (free h' (bad O m')) h' x v.
Proof. intros. eapply stands_moves; [eassumption| | |eassumption]; [intros a Ha; right; exact Ha|eapply bad_moves; eassumption]. Qed.

Lemma stands_all_ours : forall O m m' h h' xs vs, moves (ours m) (ours m') h h' -> Forall2 (stands (free h (bad O m)) h) xs vs ->
  Forall2 (stands (free h' (bad O m')) h') xs vs.
Proof. intros. eapply stands_all_moves; [eassumption| | |eassumption]; [intros a Ha; right; exact Ha|eapply bad_moves; eassumption]. Qed.

Lemma elems_same : forall h h' s l, elems h s l -> (forall a, addrs s a -> nth_error h' a = nth_error h a) -> elems h' s l.
Proof. intros h h' [s|] l H He; [|exact H]. cbn in *. rewrite (cells_same h h' s); [exact H|]. apply He. left. reflexivity. Qed.

Lemma elems_bound : forall h s l a, elems h s l -> addrs s a -> (a < length h)%nat.
Proof. intros h [s|] l a H Ha; [|destruct Ha]. destruct Ha as [<-|[]]. eapply cells_bound; eauto. Qed.

Definition stk_elems (O : nat -> Prop) (h : heap) (m : hmach) (l : list val) : Prop :=
  exists c, elems h (h_stk m) c /\ Forall2 (stands (free h (bad O m)) h) c l.
Definition out_elems (O : nat -> Prop) (h : heap) (m : hmach) (g : gslice) : Prop :=
  match h_out m, g with
  | None, None => True
  | Some s, Some l => exists c, cells h s = Some c /\ Forall2 (stands (free h (bad O m)) h) c l
  | _, _ => False
  end.

Lemma sim_stk : forall O h m ma lv, sim O h m ma lv -> stk_elems O h m (m_stack ma).
Proof.
  intros O h m ma lv [[H1 H2 H3 H4 H5 H6] _ _ _ _]. unfold stk_elems. destruct (h_stk m) as [s|]; [exact H3|]. rewrite H3. exists []. split; [reflexivity|constructor].
Qed.

Lemma sim_intro : forall O h m ma lv, out_elems O h m (m_out ma) -> stands (free h (bad O m)) h (h_dot m) (m_dot ma) -> stk_elems O h m (m_stack ma) ->
  h_sp m = m_sp ma -> h_pc m = m_pc ma -> h_tick m = m_tick ma -> NoDup (mine m) -> (forall a, In a (mine m) -> (a < length h)%nat /\ ~ O a) ->
  (forall a, O a -> (a < length h)%nat) -> elems h (h_vals m) lv -> sim O h m ma lv.
Proof.
  intros O h m ma lv H1 H2 H3 H4 H5 H6 H7 H8 H9 H10. constructor; auto. constructor; auto.
  destruct H3 as (c & Hc & Hf). destruct (h_stk m) as [s|]; [exists c; auto|]. cbn in Hc. subst c. inversion Hf. reflexivity.
Qed.

Lemma stk_update : forall O h m ma lv h' stk' sp' l', sim O h m ma lv -> moves (addrs (h_stk m)) (addrs stk') h h' ->
  (let m' := h_set_stk m stk' sp' in stk_elems O h' m' l' -> sim O h' m' (set_stack ma l' sp') lv) /\ moves (ours m) (ours (h_set_stk m stk' sp')) h h'.
Proof.
  intros O h m ma lv h' stk' sp' l' Hs Hm. set (m' := h_set_stk m stk' sp').
  assert (Hm' : moves (ours m) (ours m') h h').
  { destruct Hm as (M1 & M2 & M3). split; [exact M1|]. split.
    - intros a Ha Hn. apply M2; [exact Ha|]. intro. apply Hn. unfold ours, mine. rewrite !in_app_iff. auto.
    - intros a Ha. unfold ours, mine in *. cbn [m' h_set_stk h_out h_stk h_vals] in Ha. rewrite !in_app_iff in *. destruct Ha as [Ha|[Ha|Ha]]; auto.
      destruct (M3 _ Ha); auto. }
  split; [|exact Hm']. cbn zeta. intro Hl'. destruct Hs as [[H1 H2 H3 H4 H5 H6] N1 N2 N3 N4]. destruct Hm as (M1 & M2 & M3).
  assert (Hout : forall a, addrs (h_out m) a -> nth_error h' a = nth_error h a).
  { intros a Ha. apply M2.
    - apply N2. unfold mine. rewrite !in_app_iff. auto.
    - intro Hb. unfold mine in N1. apply nodup_app in N1 as (_ & _ & Hd). apply (Hd a Ha). apply in_app_iff. auto. }
  assert (Hvals : forall a, addrs (h_vals m) a -> nth_error h' a = nth_error h a).
  { intros a Ha. apply M2.
    - apply N2. unfold mine. rewrite !in_app_iff. auto.
    - intro Hb. unfold mine in N1. apply nodup_app in N1 as (_ & N1 & _). apply nodup_app in N1 as (_ & _ & Hd). apply (Hd a Hb Ha). }
  apply sim_intro; cbn [m' h_set_stk h_out h_dot h_sp h_pc h_tick h_vals set_stack m_out m_dot m_stack m_sp m_pc m_tick]; auto.
  - unfold out_elems. cbn [m' h_set_stk h_out]. destruct (h_out m) as [s|] eqn:Eo, (m_out ma) as [l|]; auto. destruct H1 as (c & Hc & Hf). exists c.
    split; [rewrite (cells_same h h' s); [exact Hc|apply Hout; left; reflexivity]|]. eapply stands_all_ours; eauto.
  - eapply stands_ours; eauto.
  - unfold mine in *. cbn [m' h_set_stk h_out h_stk h_vals]. eapply nodup_mid; [exact N1|intros x Hx; apply N2; exact Hx|apply addr_nodup|].
    intros x Hx. destruct (M3 _ Hx); [auto|right; lia].
  - intros a Ha. destruct Hm' as (_ & _ & Hm'). destruct (Hm' _ Ha) as [Hb|Hb].
    + destruct (N2 _ Hb). split; [lia|assumption].
    + split; [lia|]. intro Ho. apply N3 in Ho. lia.
  - intros a Ha. apply N3 in Ha. lia.
  - eapply elems_same; eauto.
Qed.

Lemma out_update : forall O h m ma lv h' out' g', sim O h m ma lv -> moves (addrs (h_out m)) (addrs out') h h' ->
  (let m' := h_set_out m out' in out_elems O h' m' g' -> sim O h' m' (set_out ma g') lv) /\ moves (ours m) (ours (h_set_out m out')) h h'.
Proof.
  intros O h m ma lv h' out' g' Hs Hm. set (m' := h_set_out m out').
  assert (Hm' : moves (ours m) (ours m') h h').
  { destruct Hm as (M1 & M2 & M3). split; [exact M1|]. split.
    - intros a Ha Hn. apply M2; [exact Ha|]. intro. apply Hn. unfold ours, mine. rewrite !in_app_iff. auto.
    - intros a Ha. unfold ours, mine in *. cbn [m' h_set_out h_out h_stk h_vals] in Ha. rewrite !in_app_iff in *. destruct Ha as [Ha|[Ha|Ha]]; auto.
      destruct (M3 _ Ha); auto. }
  split; [|exact Hm']. cbn zeta. intro Hl'. destruct Hs as [[H1 H2 H3 H4 H5 H6] N1 N2 N3 N4]. destruct Hm as (M1 & M2 & M3).
  assert (Hstk : forall a, addrs (h_stk m) a -> nth_error h' a = nth_error h a).
  { intros a Ha. apply M2.
    - apply N2. unfold mine. rewrite !in_app_iff. auto.
    - intro Hb. unfold mine in N1. apply nodup_app in N1 as (_ & _ & Hd). apply (Hd a Hb). apply in_app_iff. auto. }
  assert (Hvals : forall a, addrs (h_vals m) a -> nth_error h' a = nth_error h a).
  { intros a Ha. apply M2.
    - apply N2. unfold mine. rewrite !in_app_iff. auto.
    - intro Hb. unfold mine in N1. apply nodup_app in N1 as (_ & _ & Hd). apply (Hd a Hb). apply in_app_iff. auto. }
  apply sim_intro; cbn [m' h_set_out h_out h_dot h_sp h_pc h_tick h_vals h_stk set_out m_out m_dot m_stack m_sp m_pc m_tick]; auto.
  - eapply stands_ours; eauto.
  - unfold stk_elems. cbn [m' h_set_out h_stk]. destruct (h_stk m) as [s|] eqn:Es.
    + destruct H3 as (c & Hc & Hf). exists c. split; [cbn; rewrite (cells_same h h' s); [exact Hc|apply Hstk; left; reflexivity]|]. eapply stands_all_ours; eauto.
    + rewrite H3. exists []. split; [reflexivity|constructor].
  - unfold mine in *. cbn [m' h_set_out h_out h_stk h_vals]. apply (nodup_mid [] (addr_of (h_out m)) (addr_of out') _ (length h)); [exact N1|intros x Hx; apply N2; exact Hx|apply addr_nodup|].
    intros x Hx. destruct (M3 _ Hx); [auto|right; lia].
  - intros a Ha. destruct Hm' as (_ & _ & Hm'). destruct (Hm' _ Ha) as [Hb|Hb].
    + destruct (N2 _ Hb). split; [lia|assumption].
    + split; [lia|]. intro Ho. apply N3 in Ho. lia.
  - intros a Ha. apply N3 in Ha. lia.
  - eapply elems_same; eauto.
Qed.

Lemma sim_new : forall O h m ma lv new, sim O h m ma lv -> sim O (h ++ new) m ma lv /\ moves (ours m) (ours m) h (h ++ new).
Proof.
  intros O h m ma lv new Hs. pose proof (moves_new (addrs (h_stk m)) h new) as Hm. destruct (stk_update O h m ma lv (h ++ new) (h_stk m) (h_sp m) (m_stack ma) Hs Hm) as [H1 H2].
  destruct (sim_stk _ _ _ _ _ Hs) as (c & Hc & Hf).
  assert (E : h_set_stk m (h_stk m) (h_sp m) = m) by (destruct m; reflexivity). rewrite E in *. split; [|exact H2].
  assert (E2 : set_stack ma (m_stack ma) (h_sp m) = ma). { destruct Hs as [[_ _ _ -> _ _] _ _ _ _]. destruct ma; reflexivity. }
  rewrite E2 in H1. apply H1. exists c. split; [|eapply stands_all_ours; eauto]. eapply elems_same; [exact Hc|]. intros a Ha. apply nth_error_app1. eapply elems_bound; eauto.
Qed.

Lemma forall2_len : forall A B (R : A -> B -> Prop) l l', Forall2 R l l' -> length l = length l'.
Proof. intros A B R l l' H. induction H; cbn; congruence. Qed.

Lemma Forall2_set_nth : forall A B (R : A -> B -> Prop) l l' i a b, Forall2 R l l' -> R a b -> Forall2 R (set_nth i a l) (set_nth i b l').
Proof. intros A B R l l' i a b H Hr. revert i. induction H; intros [|i]; cbn; constructor; auto. Qed.

Lemma store_ok : forall h s i v h' l, store h s i v = Some h' -> cells h s = Some l ->
  cells h' s = Some (set_nth i v l) /\ moves (addrs (Some s)) (addrs (Some s)) h h'.
Proof.
  intros h s i v h' l H Hl. unfold store in H. destruct (nth_error h (s_addr s)) as [[b| |]|] eqn:Eb; try discriminate.
  destruct (Nat.ltb_spec i (s_len s)) as [Hi|]; [|discriminate]. injection H as <-.
  assert (Ha : (s_addr s < length h)%nat) by (apply nth_error_Some; congruence). unfold cells in *. rewrite Eb in Hl.
  destruct (Nat.leb_spec (s_off s + s_cap s) (length b)); [|discriminate]. destruct (Nat.leb_spec (s_len s) (s_cap s)); [|discriminate]. injection Hl as <-. split.
  - rewrite nth_error_set_same by exact Ha. rewrite set_nth_len. destruct (Nat.leb_spec (s_off s + s_cap s) (length b)); [|lia].
    destruct (Nat.leb_spec (s_len s) (s_cap s)); [|lia]. cbn [andb]. rewrite skipn_set_nth, firstn_set_nth_in by exact Hi. reflexivity.
  - split; [rewrite set_nth_len; lia|]. split; [|auto]. intros a Ha' Hn. rewrite nth_error_set_nth. destruct (Nat.eqb_spec (s_addr s) a) as [<-|]; [|reflexivity].
    exfalso. apply Hn. left. reflexivity.
Qed.

Lemma push_sim : forall O h m ma lv x v h' m', sim O h m ma lv -> stands (free h (bad O m)) h x v -> h_push x h m h' m' ->
  sim O h' m' (push v ma) lv /\ moves (ours m) (ours m') h h'.
Proof.
  intros O h m ma lv x v h' m' Hs Hx H. destruct (sim_stk _ _ _ _ _ Hs) as (c & Hc & Hf). pose proof (forall2_len _ _ _ _ _ Hf) as Hlen.
  assert (Esp : h_sp m = m_sp ma) by (destruct Hs as [[_ _ _ E _ _] _ _ _ _]; exact E).
  assert (Hlc : length c = len_of (h_stk m)). { destruct (h_stk m) as [s|]; cbn in *; [eapply cells_length; eauto|subst; reflexivity]. }
  destruct H as [h' s Hle Ha|s h' Es Hlt Hst].
  - destruct (append_ok _ _ _ _ _ _ Ha Hc) as [H1 H2]. destruct (stk_update O h m ma lv h' (Some s) (s_len s) (m_stack ma ++ [v]) Hs H2) as [H3 H4]. split; [|exact H4].
    unfold push. destruct (Nat.leb_spec (length (m_stack ma)) (m_sp ma)); [|lia].
    rewrite <- (cells_length _ _ _ H1), app_length, Hlen in H3 |- *. rewrite app_length. apply H3. exists (c ++ [x]). split; [exact H1|].
    apply Forall2_app; [eapply stands_all_ours; [|exact Hf]|constructor; [eapply stands_ours; [|exact Hx]|constructor]].
    + rewrite <- (cells_length _ _ _ H1), app_length, Hlen in H4. exact H4.
    + rewrite <- (cells_length _ _ _ H1), app_length, Hlen in H4. exact H4.
  - rewrite Es in Hc, Hlc. cbn in Hc, Hlc. destruct (store_ok _ _ _ _ _ _ Hst Hc) as [H1 H2]. rewrite <- Es in H2.
    destruct (stk_update O h m ma lv h' (Some s) (S (h_sp m)) (set_nth (h_sp m) v (m_stack ma)) Hs) as [H3 H4]; [rewrite <- Es; exact H2|]. split; [|exact H4].
    unfold push. destruct (Nat.leb_spec (length (m_stack ma)) (m_sp ma)); [lia|]. rewrite <- Esp. apply H3. exists (set_nth (h_sp m) x c). split; [exact H1|].
    apply Forall2_set_nth; [eapply stands_all_ours; eauto|eapply stands_ours; eauto].
Qed.

Lemma Forall2_nth : forall A B (R : A -> B -> Prop) l l' i a, Forall2 R l l' -> nth_error l i = Some a -> exists b, nth_error l' i = Some b /\ R a b.
Proof.
  intros A B R l l' i a H. revert i. induction H as [|x y l l' Hxy H IH]; intros [|i] Hi; try discriminate.
  - injection Hi as <-. exists y. auto.
  - apply IH. exact Hi.
Qed.

Lemma pop_sim : forall O h m ma lv x h' m', sim O h m ma lv -> h_pop h m x h' m' ->
  exists v ma', pop ma = OK (v, ma') /\ stands (free h (bad O m)) h x v /\ sim O h' m' ma' lv /\ moves (ours m) (ours m') h h'.
Proof.
  intros O h m ma lv x h' m' Hs H. destruct (sim_stk _ _ _ _ _ Hs) as (c & Hc & Hf).
  assert (Esp : h_sp m = m_sp ma) by (destruct Hs as [[_ _ _ E _ _] _ _ _ _]; exact E).
  destruct H as [s sp h' Es Hsp Hl Hst]. rewrite Es in Hc. cbn in Hc. unfold load in Hl. rewrite Hc in Hl.
  destruct (Forall2_nth _ _ _ _ _ _ _ Hf Hl) as (v & Hv & Hx). destruct (store_ok _ _ _ _ _ _ Hst Hc) as [H1 H2]. rewrite <- Es in H2.
  destruct (stk_update O h m ma lv h' (h_stk m) sp (set_nth sp VNil (m_stack ma)) Hs H2) as [H3 H4].
  exists v. eexists. split; [unfold pop; rewrite <- Esp, Hsp, Hv; reflexivity|]. split; [exact Hx|]. split; [|exact H4].
  apply H3. exists (set_nth sp (HAtom VNil) c). cbn [h_set_stk h_stk]. rewrite Es. split; [exact H1|].
  apply Forall2_set_nth; [eapply stands_all_ours; [|exact Hf]; rewrite Es in H4; exact H4|]. apply RpAtom. reflexivity.
Qed.

Fixpoint clear_h (i n : nat) (l : list hval) : list hval :=
  match n with O => l | S n' => clear_h (S i) n' (set_nth i (HAtom VNil) l) end.

Lemma clear_ok : forall n h s i h' l, h_clear h s i n = Some h' -> elems h s l -> elems h' s (clear_h i n l) /\ moves (addrs s) (addrs s) h h'.
Proof.
  induction n as [|n IH]; intros h s i h' l H Hl; cbn [h_clear clear_h] in *.
  - injection H as <-. split; [exact Hl|apply moves_refl].
  - destruct s as [s|]; [|discriminate]. destruct (store h s i (HAtom VNil)) as [h1|] eqn:Es; [|discriminate]. cbn in Hl.
    destruct (store_ok _ _ _ _ _ _ Es Hl) as [H1 H2]. destruct (IH _ _ _ _ _ H H1) as [H3 H4]. split; [exact H3|]. eapply moves_trans; eauto.
Qed.

Lemma clear_stands : forall P h n i l vs, Forall2 (stands P h) l vs -> Forall2 (stands P h) (clear_h i n l) (clear_from i n vs).
Proof.
  induction n as [|n IH]; intros i l vs H; cbn [clear_h clear_from]; [exact H|]. apply IH. apply Forall2_set_nth; [exact H|]. apply RpAtom. reflexivity.
Qed.

Lemma Forall2_firstn : forall A B (R : A -> B -> Prop) n l l', Forall2 R l l' -> Forall2 R (firstn n l) (firstn n l').
Proof. induction n as [|n IH]; intros l l' H; [constructor|]. destruct H; cbn; constructor; auto. Qed.
Lemma Forall2_skipn : forall A B (R : A -> B -> Prop) n l l', Forall2 R l l' -> Forall2 R (skipn n l) (skipn n l').
Proof. induction n as [|n IH]; intros l l' H; [exact H|]. destruct H; cbn; [constructor|auto]. Qed.

Lemma popN_sim : forall O h m ma lv k xs h' m', sim O h m ma lv -> h_popN k h m xs h' m' ->
  exists vs ma', popN (Z.of_nat k) ma = OK (vs, ma') /\ Forall2 (stands (free h (bad O m)) h) xs vs /\ sim O h' m' ma' lv /\
    moves (ours m) (ours m') h h' /\ cells h' (mkSl (length h) 0 k k) = Some xs /\ length xs = k /\ ~ In (length h) (mine m').
Proof.
  intros O h m ma lv k xs h' m' Hs H. destruct H as [h' Hk Hxs Hlen Hcl].
  destruct (sim_stk _ _ _ _ _ Hs) as (c & Hc & Hf).
  assert (Esp : h_sp m = m_sp ma) by (destruct Hs as [[_ _ _ E _ _] _ _ _ _]; exact E).
  assert (Exs : xs = firstn k (skipn (h_sp m - k) c)).
  { rewrite Hxs. destruct (h_stk m) as [s|]; cbn in Hc; [rewrite Hc; reflexivity|]. subst c. destruct (h_sp m - k)%nat; destruct k; reflexivity. }
  destruct (sim_new O h m ma lv [BArr xs] Hs) as [Hs1 Hm1]. set (h1 := h ++ [BArr xs]) in *.
  assert (Hc1 : elems h1 (h_stk m) c). { eapply elems_same; [exact Hc|]. intros a Ha. apply nth_error_app1. eapply elems_bound; eauto. }
  destruct (clear_ok _ _ _ _ _ _ Hcl Hc1) as [Hc2 Hm2].
  destruct (stk_update O h1 m ma lv h' (h_stk m) (h_sp m - k) (clear_from (h_sp m - k) k (m_stack ma)) Hs1 Hm2) as [H3 H4].
  assert (Hlt : forall a, In a (mine m) -> (a < length h)%nat) by (intros a Ha; eapply si_lt; eauto).
  assert (Hbl : nth_error h' (length h) = Some (BArr xs)).
  { destruct Hm2 as (M1 & M2 & _). rewrite M2; [apply nth_error_last|unfold h1; rewrite app_length; cbn; lia|].
    intro Ha. assert (length h < length h)%nat by (apply Hlt; unfold mine; rewrite !in_app_iff; auto). lia. }
  exists (firstn k (skipn (h_sp m - k) (m_stack ma))). eexists. split; [|split; [|split; [|split; [|split; [|split]]]]].
  - unfold popN. rewrite <- Esp, Nat2Z.id. destruct (Z.ltb_spec (Z.of_nat (h_sp m)) (Z.of_nat k)); [lia|]. destruct (Z.ltb_spec (Z.of_nat k) 0); [lia|]. reflexivity.
  - rewrite Exs. apply Forall2_firstn, Forall2_skipn. exact Hf.
  - apply H3. exists (clear_h (h_sp m - k) k c). split; [exact Hc2|]. apply clear_stands. eapply stands_all_ours; [exact H4|]. eapply stands_all_ours; [exact Hm1|exact Hf].
  - eapply moves_trans; eauto.
  - unfold cells. cbn [s_addr s_off s_len s_cap]. rewrite Hbl, Hlen. cbn [Nat.add]. rewrite !Nat.leb_refl. cbn [andb skipn]. rewrite <- Hlen, firstn_all. reflexivity.
  - exact Hlen.
  - intro Hin. specialize (Hlt (length h) Hin). lia.
Qed.

(** ** Selection *)
Lemma g_list_some : forall g v, g_append g v = Some (g_list g ++ [v]).
Proof. reflexivity. Qed.

Definition g_plus (g : gslice) (l : list val) : gslice := match l with [] => g | _ => Some (g_list g ++ l) end.

Lemma g_appends_plus : forall l g, g_appends g l = g_plus g l.
Proof.
  induction l as [|v l IH]; intro g; [reflexivity|]. change (g_appends g (v :: l)) with (g_appends (g_append g v) l). rewrite IH.
  destruct l as [|w l]; [reflexivity|]. cbn [g_plus g_append g_list]. rewrite <- app_assoc. reflexivity.
Qed.

Lemma g_plus_assoc : forall g v l, g_plus (g_append g v) l = g_plus g (v :: l).
Proof. intros g v [|w l]; [reflexivity|]. cbn. rewrite <- app_assoc. reflexivity. Qed.

Lemma slice_loop_plus : forall fuel up src i e s l acc r, slice_loop fuel up src i e s (Some l) = OK (Some r) ->
  exists vs, r = l ++ vs /\ slice_loop fuel up src i e s acc = OK (g_plus acc vs).
Proof.
  induction fuel as [|fuel IH]; intros up src i e s l acc r H; cbn [slice_loop] in *; destruct (if up then i <? e else i >? e); try discriminate.
  - injection H as <-. exists []. rewrite app_nil_r. auto.
  - destruct (index_Z src i) as [v|]; [|discriminate]. cbn [g_append g_list] in H. destruct (IH _ _ _ _ _ _ (g_append acc v) _ H) as (vs & -> & Hv).
    exists (v :: vs). rewrite <- app_assoc. split; [reflexivity|]. rewrite Hv, g_plus_assoc. reflexivity.
  - injection H as <-. exists []. rewrite app_nil_r. auto.
Qed.

Lemma slice_loop_some : forall fuel up src i e s l, slice_loop fuel up src i e s (Some l) <> OK None.
Proof.
  induction fuel as [|fuel IH]; intros up src i e s l; cbn [slice_loop]; destruct (if up then i <? e else i >? e); try discriminate.
  destruct (index_Z src i); [|discriminate]. apply IH.
Qed.

Lemma keys_plus : forall W v k neg acc vs, valsByKey W (Some []) v k neg = OK (Some vs) -> valsByKey W acc v k neg = OK (g_plus acc vs).
Proof.
  intros W v k neg acc vs H. unfold valsByKey in *.
  assert (N : forall (r : option val), OK (E := rerr) (match r with Some x => g_append (Some []) x | None => Some [] end) = OK (Some vs) ->
    OK (E := rerr) (match r with Some x => g_append acc x | None => acc end) = OK (g_plus acc vs)).
  { intros [x|] E; injection E as <-; reflexivity. }
  destruct k; try (destruct v; try (injection H as <-; reflexivity);
    first [destruct (isInt _); [apply N; exact H|injection H as <-; reflexivity]|apply N; exact H]).
  destruct v as [| | | | | | |l| | | | |]; try discriminate. destruct (sliceEval s (Z.of_nat (length l))) as [[a b] c].
  destruct (c >? 0); [|destruct (c <? 0)].
  - destruct (slice_loop_plus _ _ _ _ _ _ _ acc _ H) as (vs' & -> & E). exact E.
  - destruct (slice_loop_plus _ _ _ _ _ _ _ acc _ H) as (vs' & -> & E). exact E.
  - injection H as <-. reflexivity.
Qed.

Lemma keys_lost : forall W v k neg acc, valsByKey W (Some []) v k neg = OK None -> valsByKey W acc v k neg = OK None.
Proof.
  intros W v k neg acc H. unfold valsByKey in *.
  destruct k; try (destruct v; try discriminate; first [destruct (isInt _); [|discriminate]|idtac]; match goal with H : OK (match ?r with _ => _ end) = _ |- _ => destruct r; discriminate end).
  destruct v as [| | | | | | |l| | | | |]; try reflexivity. destruct (sliceEval s (Z.of_nat (length l))) as [[a b] c].
  destruct (c >? 0); [|destruct (c <? 0)]; try (exfalso; eapply slice_loop_some; exact H). discriminate.
Qed.

Lemma wild_plus : forall W t v acc vs t', valsWild W t (Some []) v = (Some vs, t') -> valsWild W t acc v = (g_plus acc vs, t').
Proof.
  intros W t v acc vs t' H. unfold valsWild in *. destruct v; try (injection H as <- <-; reflexivity); rewrite !g_appends_plus in *.
  - injection H as E <-. f_equal. destruct l; cbn in E; injection E as <-; reflexivity.
  - injection H as E <-. f_equal. destruct (map snd (reorder (w_perm W t (length m)) m)); cbn in E; injection E as <-; reflexivity.
Qed.

(** the loop over several keys *)
Fixpoint keys_vals (W : world) (neg : bool) (acc : gslice) (v : val) (sels : list val) : M gslice :=
  match sels with
  | [] => OK acc
  | sel :: r => let! acc' := if isNothing sel then OK acc else valsByKey W acc v sel neg in keys_vals W neg acc' v r
  end.

Lemma union_keys : forall W sels acc v, unionVals W acc v sels = keys_vals W true acc v sels.
Proof.
  intros W sels. induction sels as [|s r IH]; intros acc v; [reflexivity|]. cbn [unionVals keys_vals]. apply bind_eq; [reflexivity|]. intro. apply IH.
Qed.

(** a slice under construction: [R] is the storage of everyone else *)
Definition acc_elems (R : nat -> Prop) (h : heap) (acc : option slc) (g : gslice) : Prop :=
  match acc, g with
  | None, None => True
  | Some s, Some l => exists c, cells h s = Some c /\ Forall2 (stands (free h (fun a => R a \/ addrs acc a)) h) c l
  | _, _ => False
  end.

Definition with_acc (R : nat -> Prop) (acc : option slc) (a : nat) : Prop := R a \/ addrs acc a.

Lemma acc_moves : forall R acc acc' h h', moves (addrs acc) (addrs acc') h h' ->
  forall a, with_acc R acc' a -> (a < length h)%nat -> with_acc R acc a.
Proof. intros R acc acc' h h' (_ & _ & H) a [Ha|Ha] Hl; [left; exact Ha|]. destruct (H _ Ha); [right; assumption|lia]. Qed.

Lemma stands_acc : forall R acc acc' h h' x v, moves (addrs acc) (addrs acc') h h' -> stands (free h (with_acc R acc)) h x v ->
  stands (free h' (with_acc R acc')) h' x v.
Proof. intros. eapply stands_moves; [eassumption| | |eassumption]; [intros a Ha; right; exact Ha|eapply acc_moves; eassumption]. Qed.

Lemma stands_all_acc : forall R acc acc' h h' xs vs, moves (addrs acc) (addrs acc') h h' -> Forall2 (stands (free h (with_acc R acc)) h) xs vs ->
  Forall2 (stands (free h' (with_acc R acc')) h') xs vs.
Proof. intros. eapply stands_all_moves; [eassumption| | |eassumption]; [intros a Ha; right; exact Ha|eapply acc_moves; eassumption]. Qed.

Lemma acc_list : forall R h acc g, acc_elems R h acc g -> exists c, elems h acc c /\ Forall2 (stands (free h (with_acc R acc)) h) c (g_list g).
Proof.
  intros R h [s|] [l|] H; cbn in H; try contradiction; [exact H|]. exists []. split; [reflexivity|constructor].
Qed.

Lemma acc_of_list : forall R h acc g c, elems h acc c -> Forall2 (stands (free h (with_acc R acc)) h) c (g_list g) -> (acc = None <-> g = None) -> acc_elems R h acc g.
Proof.
  intros R h [s|] [l|] c Hc Hf He; cbn in *; auto.
  - exists c. auto.
  - destruct He as [_ He]. discriminate He. reflexivity.
  - destruct He as [He _]. discriminate He. reflexivity.
Qed.

Lemma stands_bound : forall (P : nat -> Prop) h v x, stands P h x v -> stands (fun a => P a /\ (a < length h)%nat) h x v.
Proof.
  intros P h v. induction v as [v Hv|l IH|m IH] using val_struct_ind; intros x Hx.
  - rewrite (stands_atom _ _ _ _ Hv Hx). apply RpAtom. exact Hv.
  - destruct (stands_arr _ _ _ _ Hx) as (s & c & -> & Hp & Hc & Hf). eapply RpArr; [split; [exact Hp|eapply cells_bound; eauto]|exact Hc|].
    eapply Forall2_impl_both; [exact Hf|]. intros y w Hy Hw Hr. rewrite Forall_forall in IH. auto.
  - destruct (stands_obj _ _ _ _ Hx) as (b & c & -> & Hp & Hc & Hf). eapply RpMap; [split; [exact Hp|apply nth_error_Some; congruence]|exact Hc|].
    eapply Forall2_impl_both; [exact Hf|]. intros [k y] w Hy Hw [Hk Hr]. rewrite Forall_forall in IH. split; [exact Hk|]. apply (IH _ Hw). exact Hr.
Qed.

Lemma made_one : forall (R : nat -> Prop) h ins new x v, (forall i, In i ins -> exists w, stands (free h R) h i w) -> (forall a, R a -> (a < length h)%nat) ->
  stands (fun a => (length h <= a)%nat \/ exists i, In i ins /\ reaches h i a) (h ++ new) x v -> stands (free (h ++ new) R) (h ++ new) x v.
Proof.
  intros R h ins new x v Hin HR Hs. apply stands_bound in Hs. eapply stands_move; [|exact Hs]. intros a [Ha Hl]. split; [|reflexivity]. split; [exact Hl|].
  destruct Ha as [Ha|(i & Hi & Hr)].
  - intro Hr. apply HR in Hr. lia.
  - destruct (Hin _ Hi) as (w & Hw). apply (stands_reaches _ _ _ _ Hr _ Hw).
Qed.

Lemma made_all_ok : forall (R : nat -> Prop) h ins h1 xs vs, (forall i, In i ins -> exists w, stands (free h R) h i w) -> (forall a, R a -> (a < length h)%nat) ->
  made_all h ins h1 xs vs -> (exists new, h1 = h ++ new) /\ Forall2 (stands (free h1 R) h1) xs vs.
Proof.
  intros R h ins h1 xs vs Hin HR [(new & ->) Hf]. split; [eauto|]. eapply Forall2_impl_both; [exact Hf|]. intros x y _ _ Hs. eapply made_one; eauto.
Qed.

Lemma made_ok : forall (R : nat -> Prop) h ins h1 x v, (forall i, In i ins -> exists w, stands (free h R) h i w) -> (forall a, R a -> (a < length h)%nat) ->
  made h ins h1 x v -> (exists new, h1 = h ++ new) /\ stands (free h1 R) h1 x v.
Proof. intros R h ins h1 x v Hin HR [(new & ->) Hs]. split; [eauto|]. eapply made_one; eauto. Qed.

(** appending what was selected from [el] *)
Lemma add_ok : forall R h acc g el v h1 xs vs h2 acc2, acc_elems R h acc g -> (forall a, R a -> (a < length h)%nat) ->
  stands (free h (with_acc R acc)) h el v -> made_all h [el] h1 xs vs -> h_appends h1 acc xs h2 acc2 ->
  acc_elems R h2 acc2 (g_plus g vs) /\ moves (addrs acc) (addrs acc2) h h2.
Proof.
  intros R h acc g el v h1 xs vs h2 acc2 Ha HR Hel Hm Hp. destruct (acc_list _ _ _ _ Ha) as (c & Hc & Hf).
  assert (HR' : forall a, with_acc R acc a -> (a < length h)%nat) by (intros a [H|H]; [auto|eapply elems_bound; eauto]).
  destruct (made_all_ok (with_acc R acc) h [el] h1 xs vs) as [(new & ->) Hx]; [intros i [<-|[]]; eauto|exact HR'|exact Hm|].
  pose proof (moves_new (addrs acc) h new) as M1.
  assert (Hc1 : elems (h ++ new) acc c). { eapply elems_same; [exact Hc|]. intros a Hin. apply nth_error_app1. eapply elems_bound; eauto. }
  destruct (appends_ok _ _ _ _ _ Hp _ Hc1) as (Hc2 & M2 & Hn). split; [|eapply moves_trans; eauto].
  eapply acc_of_list; [exact Hc2| |].
  - assert (Hg : g_list (g_plus g vs) = g_list g ++ vs). { destruct vs; [cbn; rewrite app_nil_r|]; reflexivity. }
    rewrite Hg. apply Forall2_app; [|eapply stands_all_acc; eauto]. eapply stands_all_acc; [exact M2|]. eapply stands_all_acc; [exact M1|exact Hf].
  - assert (Hag : acc = None <-> g = None). { destruct acc, g; cbn in Ha; split; congruence || contradiction. } split.
    + intro E. destruct (Hn E) as [E1 E2]. subst xs. inversion Hx; subst. cbn. tauto.
    + intro E. destruct vs; cbn in E; [|discriminate]. inversion Hx; subst. inversion Hp; subst. tauto.
Qed.

Lemma keys_ok : forall W neg el h ks acc h' acc', h_keys W neg el h ks acc h' acc' -> forall R g v kvs, acc_elems R h acc g -> (forall a, R a -> (a < length h)%nat) ->
  stands (free h (with_acc R acc)) h el v -> Forall2 (stands (free h (with_acc R acc)) h) ks kvs ->
  exists g', keys_vals W neg g v kvs = OK g' /\ acc_elems R h' acc' g' /\ moves (addrs acc) (addrs acc') h h'.
Proof.
  intros W neg el h ks acc h' acc' H. induction H as [h acc|h k kv r acc h' acc' Hk Hn H IH|h k kv v0 r acc vs h1 xs h2 acc2 h' acc' Hk Hn Hel0 Hv Hm Hp H IH|h k kv v0 r acc h' acc' Hk Hn Hel0 Hv H IH];
    intros R g v kvs Hacc HR Hel Hks.
  - inversion Hks; subst. exists g. split; [reflexivity|]. split; [exact Hacc|apply moves_refl].
  - inversion Hks as [|? kv' ? kvs' Hk' Hr']; subst. rewrite (stands_fun _ _ _ _ _ _ Hk Hk') in Hn. cbn [keys_vals]. rewrite Hn. cbn [obind]. apply IH; auto.
  - inversion Hks as [|? kv' ? kvs' Hk' Hr']; subst. rewrite (stands_fun _ _ _ _ _ _ Hk Hk') in *. rewrite (stands_fun _ _ _ _ _ _ Hel0 Hel) in *.
    destruct (add_ok _ _ _ _ _ _ _ _ _ _ _ Hacc HR Hel Hm Hp) as [Ha2 M]. cbn [keys_vals]. rewrite Hn, (keys_plus _ _ _ _ g _ Hv). cbn [obind].
    destruct (IH R (g_plus g vs) v kvs' Ha2) as (g' & E & Hg' & M').
    + intros a Ha. apply HR in Ha. destruct M as (M & _). lia.
    + eapply stands_acc; eauto.
    + eapply stands_all_acc; eauto.
    + exists g'. split; [exact E|]. split; [exact Hg'|eapply moves_trans; eauto].
  - inversion Hks as [|? kv' ? kvs' Hk' Hr']; subst. rewrite (stands_fun _ _ _ _ _ _ Hk Hk') in *. rewrite (stands_fun _ _ _ _ _ _ Hel0 Hel) in *.
    cbn [keys_vals]. rewrite Hn, (keys_lost _ _ _ _ g Hv). cbn [obind].
    assert (M : moves (addrs acc) (addrs None) h h) by (eapply moves_less; [apply moves_refl|intros a []]).
    destruct (IH R None v kvs' I HR) as (g' & E & Hg' & M').
    + eapply stands_acc; eauto.
    + eapply stands_all_acc; eauto.
    + exists g'. split; [exact E|]. split; [exact Hg'|eapply moves_trans; eauto].
Qed.

Lemma wild_ok : forall W t el h acc h' acc' t', h_wild W t el h acc h' acc' t' -> forall R g v, acc_elems R h acc g -> (forall a, R a -> (a < length h)%nat) ->
  stands (free h (with_acc R acc)) h el v ->
  exists g', valsWild W t g v = (g', t') /\ acc_elems R h' acc' g' /\ moves (addrs acc) (addrs acc') h h'.
Proof.
  intros W t el h acc h' acc' t' H R g v Ha HR Hel. destruct H as [v0 vs t' h1 xs h2 acc2 Hel0 Hv Hm Hp].
  rewrite (stands_fun _ _ _ _ _ _ Hel0 Hel) in *. destruct (add_ok _ _ _ _ _ _ _ _ _ _ _ Ha HR Hel Hm Hp) as [Ha2 M].
  exists (g_plus g vs). split; [apply wild_plus; exact Hv|]. auto.
Qed.

(** the loop over the elements of [src] *)
Definition call_ok (R : nat -> Prop) (inv : nat -> heap -> option slc -> Prop) (f : nat -> hval -> heap -> option slc -> heap -> option slc -> nat -> Prop)
    (fp : nat -> val -> gslice -> M (gslice * nat)) : Prop :=
  forall t el h acc h' acc' t' g v, f t el h acc h' acc' t' -> inv t h acc -> acc_elems R h acc g -> (forall a, R a -> (a < length h)%nat) ->
  stands (free h (with_acc R acc)) h el v ->
  exists g', fp t v g = OK (g', t') /\ acc_elems R h' acc' g' /\ moves (addrs acc) (addrs acc') h h' /\ inv t' h' acc'.

Lemma skipn_nth : forall A (l : list A) i x, nth_error l i = Some x -> skipn i l = x :: skipn (S i) l.
Proof. intros A l. induction l as [|y l IH]; intros [|i] x H; try discriminate; [injection H as ->; reflexivity|]. apply IH. exact H. Qed.

Lemma nth_error_cells : forall h s l i, cells h s = Some l -> (s_len s <= i)%nat -> skipn i l = [].
Proof. intros h s l i H Hi. apply skipn_all2. rewrite (cells_length _ _ _ H). exact Hi. Qed.

Lemma each_ok : forall f src i t h acc h' acc' t', h_each f src i t h acc h' acc' t' -> forall (R : nat -> Prop) inv fp g c vs,
  call_ok R inv f fp -> inv t h acc -> (forall a, addrs src a -> R a) -> elems h src c -> (forall a, R a -> ~ addrs acc a) ->
  Forall2 (stands (free h (with_acc R acc)) h) c vs -> acc_elems R h acc g -> (forall a, R a -> (a < length h)%nat) ->
  exists g', applySelection_loop fp t (skipn i vs) g = OK (g', t') /\ acc_elems R h' acc' g' /\ moves (addrs acc) (addrs acc') h h' /\ inv t' h' acc'.
Proof.
  intros f src i t h acc h' acc' t' H. induction H as [i t h acc Hi|s i t h acc el h1 acc1 t1 h2 acc2 t2 Es Hl Hf H IH]; intros R inv fp g c vs Hfp Hinv Hsrc Hc Hd Hvs Hacc HR.
  - assert (E : skipn i vs = []).
    { apply skipn_all2. rewrite <- (forall2_len _ _ _ _ _ Hvs). destruct src as [s|]; cbn in *; [rewrite (cells_length _ _ _ Hc); exact Hi|subst; apply Nat.le_0_l]. }
    rewrite E. exists g. split; [reflexivity|]. split; [exact Hacc|]. split; [apply moves_refl|exact Hinv].
  - subst src. cbn in Hc. unfold load in Hl. rewrite Hc in Hl. destruct (Forall2_nth _ _ _ _ _ _ _ Hvs Hl) as (v & Hv & Hel).
    rewrite (skipn_nth _ _ _ _ Hv). cbn [applySelection_loop].
    destruct (Hfp _ _ _ _ _ _ _ _ _ Hf Hinv Hacc HR Hel) as (g1 & E1 & Ha1 & M1 & Hi1). rewrite E1. cbn [obind].
    destruct (IH R inv fp g1 c vs) as (g' & E & Ha & M & Hi2); auto.
    + cbn. rewrite (cells_same h h1 s); [exact Hc|]. destruct M1 as (_ & M1 & _). apply M1; [eapply cells_bound; eauto|]. apply Hd, Hsrc. left. reflexivity.
    + intros a Ha Hb. destruct M1 as (_ & _ & M1). destruct (M1 _ Hb) as [M2|M2]; [eapply Hd; eauto|]. apply HR in Ha. lia.
    + eapply stands_all_acc; eauto.
    + intros a Ha. apply HR in Ha. destruct M1 as (M1 & _). lia.
    + exists g'. split; [exact E|]. split; [exact Ha|]. split; [eapply moves_trans; eauto|exact Hi2].
Qed.

Ltac csplit := repeat match goal with |- _ /\ _ => split end.

Lemma moves_fresh : forall (A B A' : nat -> Prop) h b h', (forall a, B a -> a = length h) -> moves B A' (h ++ [b]) h' -> moves A A' h h'.
Proof.
  intros A B A' h b h' HB (M1 & M2 & M3). rewrite app_length in *. cbn [length] in *. split; [lia|]. split.
  - intros a Ha _. rewrite M2; [apply nth_error_app1; exact Ha|lia|]. intro Hb. apply HB in Hb. lia.
  - intros a Ha. destruct (M3 _ Ha) as [Hb|Hb]; [apply HB in Hb; right; lia|right; lia].
Qed.

Lemma bad_lt : forall O h m ma lv a, sim O h m ma lv -> bad O m a -> (a < length h)%nat.
Proof. intros O h m ma lv a Hs [Ha|Ha]; [eapply si_O; eauto|eapply si_lt; eauto]. Qed.

Lemma sim_tick : forall O h m ma lv t, sim O h m ma lv -> sim O h (h_set_tick m t) (set_tick ma t) lv.
Proof. intros O h m ma lv t [[H1 H2 H3 H4 H5 H6] N1 N2 N3 N4]. constructor; auto. constructor; auto. Qed.

Lemma sim_pc : forall O h m ma lv pc, sim O h m ma lv -> sim O h (h_set_pc m pc) (set_pc ma pc) lv.
Proof. intros O h m ma lv t [[H1 H2 H3 H4 H5 H6] N1 N2 N3 N4]. constructor; auto. constructor; auto. Qed.

Lemma sim_dot : forall O h m ma lv x v, sim O h m ma lv -> stands (free h (bad O m)) h x v -> sim O h (h_set_dot m x) (set_dot ma v) lv.
Proof. intros O h m ma lv x v [[H1 H2 H3 H4 H5 H6] N1 N2 N3 N4] Hx. constructor; auto. constructor; auto. Qed.

(** a new vm.out made while [R] was in use *)
Lemma set_out_sim : forall O h m ma lv h' acc g, sim O h m ma lv -> moves (addrs (h_out m)) (addrs acc) h h' ->
  acc_elems (fun a => bad O m a /\ ~ addrs (h_out m) a) h' acc g ->
  sim O h' (h_set_out m acc) (set_out ma g) lv /\ moves (ours m) (ours (h_set_out m acc)) h h'.
Proof.
  intros O h m ma lv h' acc g Hs M Ha. destruct (out_update O h m ma lv h' acc g Hs M) as [H1 H2]. split; [|exact H2]. apply H1.
  unfold out_elems. cbn [h_set_out h_out]. unfold acc_elems in Ha. destruct acc as [s|], g as [l|]; auto. destruct Ha as (c & Hc & Hf). exists c. split; [exact Hc|].
  eapply Forall2_impl_both; [exact Hf|]. intros x y _ _ Hx. eapply stands_move; [|exact Hx]. intros a [Hl Hn]. split; [|reflexivity]. split; [exact Hl|].
  intro Hb. apply Hn. destruct Hs as [_ N1 N2 N3 _]. unfold mine in N1. apply nodup_app in N1 as (_ & _ & Nd). destruct Hb as [Hb|Hb].
  - left. split; [left; exact Hb|]. intro Hx'. destruct (N2 a) as [_ Hno]; [unfold mine; rewrite !in_app_iff; auto|]. auto.
  - unfold mine in Hb. cbn [h_set_out h_out h_stk h_vals] in Hb. rewrite !in_app_iff in Hb. destruct Hb as [Hb|Hb]; [right; exact Hb|].
    left. split; [right; unfold mine; rewrite !in_app_iff; auto|]. intro Hx'. eapply Nd; [exact Hx'|]. rewrite in_app_iff. auto.
Qed.

Lemma acc_elems_less : forall (R R' : nat -> Prop) h acc g, acc_elems R h acc g -> (forall a, R' a -> R a) -> acc_elems R' h acc g.
Proof.
  intros R R' h [s|] [l|] H HR; cbn in *; auto. destruct H as (c & Hc & Hf). exists c. split; [exact Hc|]. eapply Forall2_impl_both; [exact Hf|].
  intros x y _ _ Hx. eapply stands_move; [|exact Hx]. intros a [Hl Hn]. split; [|reflexivity]. split; [exact Hl|]. intros [Hr|Hr]; apply Hn; auto.
Qed.

Lemma apply_sim : forall O h m ma lv f fp inv t h' acc t', sim O h m ma lv -> h_apply f (h_out m) t h h' acc t' -> call_ok (bad O m) inv f fp ->
  inv t (h ++ [BArr []]) (Some (mkSl (length h) 0 0 0)) ->
  exists g', applySelection t (m_out ma) fp = OK (g', t') /\ sim O h' (h_set_out m acc) (set_out ma g') lv /\ moves (ours m) (ours (h_set_out m acc)) h h'.
Proof.
  intros O h m ma lv f fp inv t h' acc t' Hs H Hf Hi. unfold h_apply in H.
  assert (Hout : exists c, elems h (h_out m) c /\ Forall2 (stands (free h (bad O m)) h) c (g_list (m_out ma))).
  { destruct Hs as [[H1 _ _ _ _ _] _ _ _ _]. destruct (h_out m) as [s|], (m_out ma) as [l|]; try contradiction; [exact H1|]. exists []. split; [reflexivity|constructor]. }
  destruct Hout as (c & Hc & Hv). set (fresh := Some (mkSl (length h) 0 0 0)) in *.
  destruct (each_ok _ _ _ _ _ _ _ _ _ H (bad O m) inv fp (Some []) c (g_list (m_out ma))) as (g' & E & Ha & M & _); auto.
  - intros a Ha. right. unfold mine. rewrite !in_app_iff. auto.
  - eapply elems_same; [exact Hc|]. intros a Ha. apply nth_error_app1. eapply elems_bound; eauto.
  - intros a Ha [<-|[]]. cbn [s_addr] in Ha. apply (bad_lt _ _ _ _ _ _ Hs) in Ha. lia.
  - eapply Forall2_impl_both; [exact Hv|]. intros x y _ _ Hx. eapply stands_move; [|exact Hx]. intros a [Hl Hn]. split; [|apply nth_error_app1; exact Hl].
    split; [rewrite app_length; lia|]. intros [Hb|[<-|[]]]; [auto|]. cbn in Hl. lia.
  - cbn [fresh acc_elems]. exists []. split; [|constructor]. unfold cells. cbn [s_addr s_off s_len s_cap]. rewrite nth_error_last. reflexivity.
  - intros a Ha. apply (bad_lt _ _ _ _ _ _ Hs) in Ha. rewrite app_length. lia.
  - exists g'. split; [exact E|]. apply set_out_sim; [exact Hs| |].
    + eapply moves_fresh; [|exact M]. intros a [<-|[]]. reflexivity.
    + eapply acc_elems_less; [exact Ha|]. intros a [Hb _]. exact Hb.
Qed.

Lemma wild_call : forall R W, call_ok R (fun _ _ _ => True) (f_wild W) (fun t v acc => OK (valsWild W t acc v)).
Proof.
  intros R W t el h acc h' acc' t' g v H _ Ha HR Hel. destruct (wild_ok _ _ _ _ _ _ _ _ H R g v Ha HR Hel) as (g' & E & H1 & H2). exists g'. rewrite E. auto.
Qed.

Lemma keys_call : forall R W neg ks kvs fp, (forall t v acc, fp t v acc = let! g := keys_vals W neg acc v kvs in OK (g, t)) ->
  call_ok R (fun _ h acc => Forall2 (stands (free h (with_acc R acc)) h) ks kvs) (f_keys W neg ks) fp.
Proof.
  intros R W neg ks kvs fp Hfp t el h acc h' acc' t' g v [-> H] Hi Ha HR Hel. destruct (keys_ok _ _ _ _ _ _ _ _ H R g v kvs Ha HR Hel Hi) as (g' & E & H1 & H2).
  exists g'. rewrite Hfp, E. cbn [obind]. csplit; auto. eapply stands_all_acc; eauto.
Qed.

Lemma keep_fresh : forall O h m ma lv xs vs, sim O h m ma lv -> Forall2 (stands (free h (bad O m)) h) xs vs ->
  Forall2 (stands (free (h ++ [BArr []]) (with_acc (bad O m) (Some (mkSl (length h) 0 0 0)))) (h ++ [BArr []])) xs vs.
Proof.
  intros O h m ma lv xs vs Hs Hv. eapply Forall2_impl_both; [exact Hv|]. intros x y _ _ Hx. eapply stands_move; [|exact Hx].
  intros a [Hl Hn]. split; [|apply nth_error_app1; exact Hl]. split; [rewrite app_length; lia|]. intros [Hb|[<-|[]]]; [auto|]. cbn in Hl. lia.
Qed.

(** the current vm.out, extended *)
Lemma acc_out : forall O h m ma lv, sim O h m ma lv -> acc_elems (fun a => bad O m a /\ ~ addrs (h_out m) a) h (h_out m) (m_out ma).
Proof.
  intros O h m ma lv Hs. destruct Hs as [[H1 _ _ _ _ _] _ _ _ _]. unfold acc_elems. destruct (h_out m) as [s|] eqn:Eo, (m_out ma) as [l|]; auto.
  destruct H1 as (c & Hc & Hf). exists c. split; [exact Hc|]. eapply Forall2_impl_both; [exact Hf|]. intros x y _ _ Hx. eapply stands_move; [|exact Hx].
  intros a [Hl Hn]. split; [|reflexivity]. split; [exact Hl|]. intros [[Hb _]|Hb]; [auto|]. apply Hn. right. unfold mine. rewrite Eo, !in_app_iff. auto.
Qed.

Lemma stands_out : forall O m h x v, stands (free h (bad O m)) h x v ->
  stands (free h (with_acc (fun a => bad O m a /\ ~ addrs (h_out m) a) (h_out m))) h x v.
Proof.
  intros O m h x v Hx. eapply stands_move; [|exact Hx]. intros a [Hl Hn]. split; [|reflexivity]. split; [exact Hl|].
  intros [[Hb _]|Hb]; [auto|]. apply Hn. right. unfold mine. rewrite !in_app_iff. auto.
Qed.

(** ** Orders *)
Definition takes (k : option nat) (n : Z) (m : mstate) : M (list val * mstate) :=
  match k with
  | Some 0%nat => OK ([], m)
  | Some 1%nat => let! (a, m1) := pop m in OK ([a], m1)
  | Some _ => let! (b, m1) := pop m in let! (a, m2) := pop m1 in OK ([a; b], m2)
  | None => popN n m
  end.

Lemma takes_sim : forall O h m ma lv k n xs h' m', sim O h m ma lv -> h_takes k n h m xs h' m' ->
  exists vs ma', takes k n ma = OK (vs, ma') /\ Forall2 (stands (free h (bad O m)) h) xs vs /\ sim O h' m' ma' lv /\ moves (ours m) (ours m') h h' /\
    h_vals m' = h_vals m /\ h_dot m' = h_dot m.
Proof.
  intros O h m ma lv k n xs h' m' Hs H. destruct H as [n h m|n h m a h1 m1 H1|n h m b h1 m1 a h2 m2 H1 H2|n h m xs h1 m1 Hn H1].
  - exists [], ma. csplit; auto. apply moves_refl.
  - destruct (pop_sim _ _ _ _ _ _ _ _ Hs H1) as (v & ma1 & E & Hx & Hs1 & M). exists [v], ma1. cbn [takes]. rewrite E. destruct H1. csplit; auto.
  - destruct (pop_sim _ _ _ _ _ _ _ _ Hs H1) as (v & ma1 & E & Hx & Hs1 & M). destruct (pop_sim _ _ _ _ _ _ _ _ Hs1 H2) as (w & ma2 & E2 & Hx2 & Hs2 & M2).
    exists [w; v], ma2. cbn [takes]. rewrite E. cbn [obind]. rewrite E2. split; [reflexivity|]. split.
    + constructor; [|constructor; [exact Hx|constructor]]. 
      (* the second value was on the stack before the first was popped *)
      destruct (sim_stk _ _ _ _ _ Hs) as (c & Hc & Hf). destruct H1 as [s sp h1 Es Esp Hl Hst]. destruct H2 as [s2 sp2 h2 Es2 Esp2 Hl2 Hst2].
      cbn [h_set_stk h_stk h_sp] in *. rewrite Es in Hc, Es2. injection Es2 as <-. cbn in Hc. destruct (store_ok _ _ _ _ _ _ Hst Hc) as [Hc1 _].
      unfold load in Hl2. rewrite Hc1, nth_error_set_nth in Hl2. destruct (Nat.eqb_spec sp sp2); [lia|].
      destruct (Forall2_nth _ _ _ _ _ _ _ Hf Hl2) as (w' & _ & Hw'). pose proof (stands_ours _ _ _ _ _ _ _ M Hw') as Hw2.
      rewrite <- (stands_fun _ _ _ _ _ _ Hw2 Hx2). exact Hw'.
    + destruct H1, H2. csplit; auto. eapply moves_trans; eauto.
  - destruct (popN_sim _ _ _ _ _ _ _ _ _ Hs H1) as (vs & ma1 & E & Hx & Hs1 & M & _). rewrite Z2Nat.id in E by exact Hn.
    exists vs, ma1. destruct H1. csplit; auto.
Qed.

Lemma quiet_exec : forall W p rv ord o k m m' vs m1, op_of_num (order_op ord) = Some o -> quiet o = Some k -> exec W p rv ord m = OK m' ->
  takes k (order_small_int ord) m = OK (vs, m1) -> exists v, m' = push v (set_tick m1 (m_tick m')).
Proof.
  intros W p rv ord o k m m' vs m1 Ho Hk He Ht. unfold exec in He. rewrite Ho in He.
  assert (Hp : forall v n, m_tick (push v n) = m_tick n) by (intros v n; unfold push; destruct (length (m_stack n) <=? m_sp n)%nat; reflexivity).
  assert (Hs : forall n, set_tick n (m_tick n) = n) by (intros []; reflexivity).
  assert (P0 : forall v n, push v n = push v (set_tick n (m_tick (push v n)))) by (intros v n; rewrite Hp, Hs; reflexivity).
  destruct o; try discriminate Hk; injection Hk as <-; cbn [takes] in Ht.
  all: try (injection Ht as <- <-).
  all: try (injection He as <-; eexists; apply P0).
  all: try (destruct (const_of p ord); cbn [obind] in He; try discriminate; injection He as <-; eexists; apply P0).
  all: try (destruct (order_is_small ord); [injection He as <-; eexists; apply P0|try discriminate; destruct (const_of p ord); cbn [obind] in He; try discriminate; injection He as <-; eexists; apply P0]).
  all: try (destruct (popN (order_small_int ord) m) as [[args n1]| | |]; cbn [obind] in *; try discriminate; injection Ht as <- <-;
            destruct args as [|[] rest0]; try discriminate; destruct (call W (m_tick n1) _ rest0) as [[r t]| | |]; cbn [obind] in He; try discriminate; injection He as <-;
            eexists; rewrite Hp; reflexivity).
  all: destruct (pop m) as [[b n1]| | |]; cbn [obind] in *; try discriminate.
  all: try (injection Ht as <- <-; destruct (unop _ _ _); [|discriminate]; injection He as <-; eexists; apply P0).
  all: destruct (pop n1) as [[a n2]| | |]; cbn [obind] in *; try discriminate; injection Ht as <- <-;
       match goal with H : match ?b with _ => _ end = _ |- _ => destruct b as [r|]; [|discriminate] end;
       destruct r; cbn [obind] in He; try discriminate; injection He as <-; eexists; apply P0.
Qed.

Lemma push_top : forall v m n w, m_sp (push v m) = S n -> nth_error (m_stack (push v m)) n = Some w -> w = v.
Proof.
  intros v m n w H1 H2. unfold push in *. destruct (Nat.leb_spec (length (m_stack m)) (m_sp m)); cbn [m_sp m_stack set_stack] in *.
  - rewrite app_length in H1. cbn [length] in H1. assert (n = length (m_stack m)) by lia. subst n. rewrite nth_error_last in H2. congruence.
  - injection H1 as <-. rewrite nth_error_set_same in H2 by lia. congruence.
Qed.

Lemma stands_m_fun : forall P Q h m ma mb, stands_m P h m ma -> stands_m Q h m mb -> mb = set_values ma (m_values mb).
Proof.
  intros P Q h m [o d s sp pc vs t] [o' d' s' sp' pc' vs' t'] [H1 H2 H3 H4 H5 H6] [K1 K2 K3 K4 K5 K6]. cbn in *. unfold set_values. cbn. subst.
  assert (L : forall sl l l', stands_list P h sl l -> stands_list Q h sl l' -> l' = l).
  { intros sl l l' (c & Hc & Hf) (c' & Hc' & Hf'). rewrite Hc in Hc'. injection Hc' as <-. clear -Hf Hf'. revert l' Hf'. induction Hf; intros l2 Hf'; inversion Hf'; subst; [reflexivity|].
    f_equal; [eapply stands_fun; eauto|auto]. }
  f_equal.
  - destruct (h_out m), o, o'; try contradiction; [f_equal; eauto|reflexivity].
  - eapply stands_fun; eauto.
  - destruct (h_stk m); [eauto|congruence].
Qed.

Lemma exec_any : forall W p rv ord P Q h m ma mb, match op_of_num (order_op ord) with Some o => looping o = false | None => True end ->
  stands_m P h m ma -> stands_m Q h m mb -> exec W p rv ord mb = liftm (m_values mb) (exec W p rv ord ma).
Proof. intros W p rv ord P Q h m ma mb Ho Ha Hb. rewrite (stands_m_fun _ _ _ _ _ _ Ha Hb) at 1. apply exec_values. exact Ho. Qed.

Lemma quiet_looping : forall o k, quiet o = Some k -> looping o = false.
Proof. intros [] k H; try discriminate H; reflexivity. Qed.

Lemma push_vals : forall x h m h' m', h_push x h m h' m' -> h_vals m' = h_vals m.
Proof. intros x h m h' m' H. destruct H; reflexivity. Qed.
Lemma pop_fields : forall x h m h' m', h_pop h m x h' m' -> h_vals m' = h_vals m /\ h_out m' = h_out m /\ h_dot m' = h_dot m /\ h_tick m' = h_tick m.
Proof. intros x h m h' m' H. destruct H; auto. Qed.
Lemma popN_fields : forall k xs h m h' m', h_popN k h m xs h' m' -> h_vals m' = h_vals m /\ h_out m' = h_out m /\ h_dot m' = h_dot m /\ h_tick m' = h_tick m.
Proof. intros k xs h m h' m' H. destruct H; auto. Qed.

Lemma sim_tick_eq : forall O h m ma lv, sim O h m ma lv -> h_tick m = m_tick ma.
Proof. intros O h m ma lv [[_ _ _ _ _ H] _ _ _ _]. exact H. Qed.

Lemma exec_sim : forall W p root ord h m h' m', h_exec W p root ord h m h' m' -> forall O ma lv rv, sim O h m ma lv -> stands (free h (bad O m)) h root rv ->
  (match op_of_num (order_op ord) with Some o => looping o = false | None => True end) /\
  exists ma', exec W p rv ord ma = OK ma' /\ sim O h' m' ma' lv /\ moves (ours m) (ours m') h h' /\ h_vals m' = h_vals m.
Proof.
  intros W p root ord h m h' m' H O ma lv rv Hs Hroot.
  destruct H as [o k args h1 m1 rv0 ma0 ma' n v h2 x h3 m3 Ho Hq Ht Hr0 Hm0 He Hsp Hv Hmade Hpush
    |xs h1 m1 h2 m2 Ho Hn Hp Hpush|h1 acc t Ho Ha|o k kv h1 m1 Ho Ho' Hp Hk Hnone|o k kv h1 m1 h2 acc t Ho Ho' Hp Hk Hnone Ha|ks h1 m1 h2 acc t Ho Hn Hp Ha
    |o v w h1 m1 h2 s Ho Ho' Hp Hv Hno Hb Ha|o v w h1 m1 Ho Ho' Hp Hv Hb|h1 acc t Ho Hw|o k kv h1 m1 Ho Ho' Hp Hk Hnone|o k kv h1 m1 h2 acc Ho Ho' Hp Hk Hnone Ha
    |ks h1 m1 h2 acc Ho Hn Hp Ha]; rewrite Ho.
  - split; [eapply quiet_looping; eauto|].
    destruct (takes_sim _ _ _ _ _ _ _ _ _ _ Hs Ht) as (vs & ma1 & E1 & Hx & Hs1 & M1 & Ev & Ed).
    rewrite (stands_fun _ _ _ _ _ _ Hr0 Hroot) in *.
    pose proof (si_m _ _ _ _ _ Hs) as Hma. rewrite (exec_any W p rv ord (free h (bad O m)) any h m ma ma0) in He; [|rewrite Ho; eapply quiet_looping; eauto|exact Hma|exact Hm0].
    destruct (exec W p rv ord ma) as [mb| | |] eqn:E2; try discriminate He. cbn [liftm obind] in He. injection He as <-. cbn [set_values m_sp m_stack m_tick] in *.
    destruct (quiet_exec W p rv ord o k ma mb vs ma1 Ho Hq E2 E1) as (v' & Ev'). exists mb. split; [reflexivity|].
    assert (v' = v). { rewrite Ev' in Hsp, Hv. symmetry. eapply push_top; eauto. } subst v'.
    assert (Hin : forall i, In i (root :: h_dot m :: args) -> exists w, stands (free h1 (bad O m1)) h1 i w).
    { intros i [<-|[<-|Hi]].
      - exists rv. eapply stands_ours; eauto.
      - exists (m_dot ma). eapply stands_ours; [exact M1|]. apply Hma.
      - destruct (Forall2_in_l _ _ _ _ _ _ Hx Hi) as (w & _ & Hw). exists w. eapply stands_ours; eauto. }
    destruct (made_ok (bad O m1) h1 _ h2 x v Hin) as [(new & ->) Hxv]; [intros a Ha; eapply bad_lt; eauto|exact Hmade|].
    destruct (sim_new O h1 m1 ma1 lv new Hs1) as [Hs2 M2]. apply (sim_tick _ _ _ _ _ (m_tick mb)) in Hs2.
    destruct (push_sim _ _ _ _ _ _ _ _ _ Hs2 Hxv Hpush) as [Hs3 M3]. rewrite <- Ev' in Hs3. split; [exact Hs3|]. split.
    + eapply moves_trans; [exact M1|]. eapply moves_trans; [exact M2|exact M3].
    + rewrite (push_vals _ _ _ _ _ Hpush). exact Ev.
  - split; [reflexivity|]. destruct (popN_fields _ _ _ _ _ _ Hp) as (Ev & _). destruct (popN_sim _ _ _ _ _ _ _ _ _ Hs Hp) as (vs & ma1 & E & Hx & Hs1 & M & Hc & Hlen & Hnot).
    rewrite Z2Nat.id in E by exact Hn. eexists. split; [unfold exec; rewrite Ho, E; reflexivity|].
    assert (Hx1 : stands (free h1 (bad O m1)) h1 (HArr (mkSl (length h) 0 (length xs) (length xs))) (VArr vs)).
    { eapply RpArr; [|rewrite Hlen; exact Hc|eapply stands_all_ours; eauto]. cbn [s_addr]. split; [eapply (cells_bound _ _ _ Hc)|]. intros [Ho'|Hb]; [|auto].
      apply (si_O _ _ _ _ _ Hs) in Ho'. lia. }
    destruct (push_sim _ _ _ _ _ _ _ _ _ Hs1 Hx1 Hpush) as [Hs2 M2]. split; [exact Hs2|]. split; [eapply moves_trans; eauto|].
    rewrite (push_vals _ _ _ _ _ Hpush). exact Ev.
  - split; [reflexivity|]. rewrite (sim_tick_eq _ _ _ _ _ Hs) in Ha.
    destruct (apply_sim O h m ma lv _ _ _ _ _ _ _ Hs Ha (wild_call _ W) I) as (g' & E & Hs1 & M).
    exists (set_tick (set_out ma g') t). split; [unfold exec; rewrite Ho, E; reflexivity|]. split; [apply sim_tick; exact Hs1|]. auto.
  - split; [destruct Ho' as [->| ->]; reflexivity|]. destruct (pop_fields _ _ _ _ _ Hp) as (Ev & _). destruct (pop_sim _ _ _ _ _ _ _ _ Hs Hp) as (v & ma1 & E & Hx & Hs1 & M).
    rewrite (stands_fun _ _ _ _ _ _ Hk Hx) in Hnone.
    exists (set_out ma1 (Some [])). split; [unfold exec; rewrite Ho; destruct Ho' as [->| ->]; rewrite E; cbn [obind]; rewrite Hnone; reflexivity|].
    destruct (set_out_sim O h1 m1 ma1 lv (h1 ++ [BArr []]) (Some (mkSl (length h1) 0 0 0)) (Some []) Hs1) as [Hs2 M2].
    + eapply moves_less; [apply moves_alloc|]. intros a [<-|[]]. right. reflexivity.
    + cbn [acc_elems]. exists []. split; [|constructor]. unfold cells. cbn [s_addr s_off s_len s_cap]. rewrite nth_error_last. reflexivity.
    + split; [exact Hs2|]. split; [eapply moves_trans; eauto|exact Ev].
  - split; [destruct Ho' as [->| ->]; reflexivity|]. destruct (pop_fields _ _ _ _ _ Hp) as (Ev & _ & _ & _). destruct (pop_sim _ _ _ _ _ _ _ _ Hs Hp) as (v & ma1 & E & Hx & Hs1 & M).
    rewrite (stands_fun _ _ _ _ _ _ Hk Hx) in Hnone. rewrite (sim_tick_eq _ _ _ _ _ Hs1) in Ha.
    pose proof (stands_ours _ _ _ _ _ _ _ M Hx) as Hx1.
    set (fp := fun (t : nat) (v0 : val) (acc : gslice) => let! g := valsByKey W acc v0 v (op_beq o OpSelect) in OK (E := rerr) (g, t)).
    assert (Hcall : call_ok (bad O m1) (fun _ h acc => Forall2 (stands (free h (with_acc (bad O m1) acc)) h) [k] [v]) (f_keys W (op_beq o OpSelect) [k]) fp).
    { apply keys_call. intros t0 v0 acc0. unfold fp. cbn [keys_vals]. rewrite Hnone. destruct (valsByKey W acc0 v0 v (op_beq o OpSelect)); reflexivity. }
    destruct (apply_sim O h1 m1 ma1 lv _ _ _ _ _ _ _ Hs1 Ha Hcall) as (g' & E2 & Hs2 & M2).
    { cbn beta. eapply keep_fresh; eauto. }
    unfold fp in E2.
    exists (set_tick (set_out ma1 g') t). split; [unfold exec; rewrite Ho; destruct Ho' as [->| ->]; rewrite E; cbn [obind]; rewrite Hnone; cbn [op_beq] in *; rewrite E2; reflexivity|].
    split; [apply sim_tick; exact Hs2|]. split; [eapply moves_trans; eauto|exact Ev].
  - split; [reflexivity|]. destruct (popN_fields _ _ _ _ _ _ Hp) as (Ev & _). destruct (popN_sim _ _ _ _ _ _ _ _ _ Hs Hp) as (vs & ma1 & E & Hx & Hs1 & M & _).
    rewrite Z2Nat.id in E by exact Hn. rewrite (sim_tick_eq _ _ _ _ _ Hs1) in Ha. pose proof (stands_all_ours _ _ _ _ _ _ _ M Hx) as Hx1.
    set (fp := fun (t : nat) (v0 : val) (acc : gslice) => let! g := unionVals W acc v0 vs in OK (E := rerr) (g, t)).
    assert (Hcall : call_ok (bad O m1) (fun _ h acc => Forall2 (stands (free h (with_acc (bad O m1) acc)) h) ks vs) (f_keys W true ks) fp).
    { apply keys_call. intros t0 v0 acc0. unfold fp. rewrite union_keys. reflexivity. }
    destruct (apply_sim O h1 m1 ma1 lv _ _ _ _ _ _ _ Hs1 Ha Hcall) as (g' & E2 & Hs2 & M2).
    { cbn beta. eapply keep_fresh; eauto. }
    unfold fp in E2.
    exists (set_tick (set_out ma1 g') t). split; [unfold exec; rewrite Ho, E; cbn [obind]; rewrite E2; reflexivity|].
    split; [apply sim_tick; exact Hs2|]. split; [eapply moves_trans; eauto|exact Ev].
  - split; [destruct Ho' as [->| ->]; reflexivity|]. destruct (pop_fields _ _ _ _ _ Hp) as (Ev & _). destruct (pop_sim _ _ _ _ _ _ _ _ Hs Hp) as (v0 & ma1 & E & Hx & Hs1 & M).
    rewrite (stands_fun _ _ _ _ _ _ Hv Hx) in *.
    exists (set_out ma1 (g_append (m_out ma1) (m_dot ma1))). split; [unfold exec; rewrite Ho; destruct Ho' as [->| ->]; rewrite E; cbn [obind]; rewrite Hno, Hb; reflexivity|].
    pose proof (acc_out _ _ _ _ _ Hs1) as Hacc. destruct (acc_list _ _ _ _ Hacc) as (c & Hc & Hf). destruct (append_ok _ _ _ _ _ _ Ha Hc) as [Hc2 M2].
    destruct (set_out_sim O h1 m1 ma1 lv h2 (Some s) (g_append (m_out ma1) (m_dot ma1)) Hs1 M2) as [Hs2 M3].
    + cbn [acc_elems g_append]. exists (c ++ [h_dot m1]). split; [exact Hc2|]. apply Forall2_app; [eapply stands_all_acc; eauto|]. constructor; [|constructor].
      eapply stands_acc; [exact M2|]. apply stands_out. apply (si_m _ _ _ _ _ Hs1).
    + split; [exact Hs2|]. split; [eapply moves_trans; eauto|exact Ev].
  - split; [destruct Ho' as [->| ->]; reflexivity|]. destruct (pop_fields _ _ _ _ _ Hp) as (Ev & _). destruct (pop_sim _ _ _ _ _ _ _ _ Hs Hp) as (v0 & ma1 & E & Hx & Hs1 & M).
    rewrite (stands_fun _ _ _ _ _ _ Hv Hx) in *. exists ma1. split; [|auto].
    unfold exec; rewrite Ho; destruct Ho' as [->| ->]; rewrite E; cbn [obind]; destruct Hb as [->| ->]; rewrite ?andb_false_r; reflexivity.
  - split; [reflexivity|]. rewrite (sim_tick_eq _ _ _ _ _ Hs) in Hw.
    destruct (wild_ok _ _ _ _ _ _ _ _ Hw _ _ (m_dot ma) (acc_out _ _ _ _ _ Hs)) as (g' & E & Ha & M).
    + intros a [Hb _]. eapply bad_lt; eauto.
    + apply stands_out. apply (si_m _ _ _ _ _ Hs).
    + destruct (set_out_sim O h m ma lv h1 acc g' Hs M Ha) as [Hs2 M2]. exists (set_tick (set_out ma g') t).
      split; [unfold exec; rewrite Ho, E; reflexivity|]. split; [apply sim_tick; exact Hs2|]. auto.
  - split; [destruct Ho' as [->| ->]; reflexivity|]. destruct (pop_fields _ _ _ _ _ Hp) as (Ev & _). destruct (pop_sim _ _ _ _ _ _ _ _ Hs Hp) as (v & ma1 & E & Hx & Hs1 & M).
    rewrite (stands_fun _ _ _ _ _ _ Hk Hx) in Hnone. exists ma1. split; [|auto].
    unfold exec; rewrite Ho; destruct Ho' as [->| ->]; rewrite E; cbn [obind]; rewrite Hnone; reflexivity.
  - split; [destruct Ho' as [->| ->]; reflexivity|]. destruct (pop_fields _ _ _ _ _ Hp) as (Ev & _). destruct (pop_sim _ _ _ _ _ _ _ _ Hs Hp) as (v & ma1 & E & Hx & Hs1 & M).
    rewrite (stands_fun _ _ _ _ _ _ Hk Hx) in Hnone.
    destruct (keys_ok _ _ _ _ _ _ _ _ Ha _ _ (m_dot ma1) [v] (acc_out _ _ _ _ _ Hs1)) as (g' & E2 & Ha2 & M2).
    + intros a [Hb _]. eapply bad_lt; eauto.
    + apply stands_out. apply (si_m _ _ _ _ _ Hs1).
    + constructor; [|constructor]. apply stands_out. eapply stands_ours; eauto.
    + destruct (set_out_sim O h1 m1 ma1 lv h2 acc g' Hs1 M2 Ha2) as [Hs2 M3]. cbn [keys_vals] in E2. rewrite Hnone in E2.
      assert (E3 : valsByKey W (m_out ma1) (m_dot ma1) v (op_beq o OpNestSelect) = OK g') by (destruct (valsByKey W (m_out ma1) (m_dot ma1) v (op_beq o OpNestSelect)); exact E2).
      exists (set_out ma1 g'). split; [unfold exec; rewrite Ho; destruct Ho' as [->| ->]; rewrite E; cbn [obind]; rewrite Hnone, E3; reflexivity|].
      split; [exact Hs2|]. split; [eapply moves_trans; eauto|exact Ev].
  - split; [reflexivity|]. destruct (popN_fields _ _ _ _ _ _ Hp) as (Ev & _). destruct (popN_sim _ _ _ _ _ _ _ _ _ Hs Hp) as (vs & ma1 & E & Hx & Hs1 & M & _).
    rewrite Z2Nat.id in E by exact Hn.
    destruct (keys_ok _ _ _ _ _ _ _ _ Ha _ _ (m_dot ma1) vs (acc_out _ _ _ _ _ Hs1)) as (g' & E2 & Ha2 & M2).
    + intros a [Hb _]. eapply bad_lt; eauto.
    + apply stands_out. apply (si_m _ _ _ _ _ Hs1).
    + eapply Forall2_impl_both; [eapply stands_all_ours; eauto|]. intros x y _ _ Hxy. apply stands_out. exact Hxy.
    + destruct (set_out_sim O h1 m1 ma1 lv h2 acc g' Hs1 M2 Ha2) as [Hs2 M3].
      exists (set_out ma1 g'). split; [unfold exec; rewrite Ho, E; cbn [obind]; rewrite union_keys, E2; reflexivity|].
      split; [exact Hs2|]. split; [eapply moves_trans; eauto|exact Ev].
Qed.

Lemma loop_no_fail : forall W p rv ord m e o, op_of_num (order_op ord) = Some o -> looping o = true -> exec W p rv ord m <> Fail e.
Proof.
  intros W p rv ord m e o Ho Hl. unfold exec. rewrite Ho. destruct o; try discriminate Hl.
  - destruct (order_pc ord); [|discriminate]. unfold looptop, branch. destruct (g_list (m_out m)); [destruct (_ || _); discriminate|].
    destruct (stepping W (m_tick m) (v :: l)). destruct (recv l0) as [[? ?] ?]. discriminate.
  - destruct (order_pc ord); [|discriminate]. unfold looptop, branch. destruct (g_list (m_out m)); [destruct (_ || _); discriminate|].
    destruct (walker W (m_tick m) (v :: l)). destruct (recv l0) as [[? ?] ?]. discriminate.
  - unfold rep, branch. destruct (m_values m); [discriminate|]. destruct (recv l) as [[? []] ?]; [|discriminate]. destruct (order_pc ord); [|discriminate]. destruct (_ || _); discriminate.
Qed.

(** an order that fails *)
Lemma fails_sim : forall W p root ord h m e h' m', h_fails W p root ord h m e h' m' -> forall O ma lv rv, sim O h m ma lv -> stands (free h (bad O m)) h root rv ->
  match op_of_num (order_op ord) with Some o => looping o = false | None => True end /\ exec W p rv ord ma = Fail e /\
  moves (ours m) (ours m') h h' /\ h_vals m' = h_vals m /\ exists ma', sim O h' m' ma' lv.
Proof.
  intros W p root ord h m e h' m' H O ma lv rv Hs Hroot. pose proof (si_m _ _ _ _ _ Hs) as Hma.
  destruct H as [o k args h1 m1 rv0 ma0 Ho Hq Ht Hr0 Hm0 He|rv0 ma0 Ho Hr0 Hm0 He]; rewrite (stands_fun _ _ _ _ _ _ Hr0 Hroot) in *.
  - rewrite Ho. split; [eapply quiet_looping; eauto|].
    destruct (takes_sim _ _ _ _ _ _ _ _ _ _ Hs Ht) as (vs & ma1 & E1 & Hx & Hs1 & M1 & Ev & Ed). split; [|csplit; eauto].
    rewrite (exec_any W p rv ord (free h (bad O m)) any h m ma ma0) in He; [|rewrite Ho; eapply quiet_looping; eauto|exact Hma|exact Hm0].
    destruct (exec W p rv ord ma); try discriminate He. injection He as ->. reflexivity.
  - assert (Hl : match op_of_num (order_op ord) with Some o => looping o = false | None => True end).
    { destruct (op_of_num (order_op ord)) as [o|] eqn:Eo; [|exact I]. destruct (looping o) eqn:El; [|reflexivity]. exfalso. eapply loop_no_fail; eauto. }
    split; [exact Hl|]. split; [|csplit; eauto; apply moves_refl].
    rewrite (exec_any W p rv ord (free h (bad O m)) any h m ma ma0 Hl Hma Hm0) in He. destruct (exec W p rv ord ma); try discriminate He. injection He as ->. reflexivity.
Qed.

(** ** Producers *)
Definition entries (P : nat -> Prop) (h : heap) (m : list (bytes * hval)) (ks : list nat) (vs : list val) : Prop :=
  Forall2 (fun x v => exists y, nth_error (map snd m) x = Some y /\ stands P h y v) ks vs.
Definition whole (P : nat -> Prop) (h : heap) (x : hval) : Prop := exists v, stands P h x v.
Definition upto (P : nat -> Prop) (h : heap) (s : slc) (i : nat) (vs : list val) : Prop :=
  whole P h (HArr s) /\ exists c, cells h s = Some c /\ Forall2 (stands P h) (skipn i c) vs.

Inductive stands_frame (P : nat -> Prop) (h : heap) : hframe -> frame -> Prop :=
| SfEach : forall s i ts vs, upto P h s i vs -> length ts = length vs -> stands_frame P h (GEach s i ts) (FEach (combine ts vs))
| SfEachM : forall a ks ts m vs, whole P h (HMap a) -> nth_error h a = Some (BMap m) -> entries P h m ks vs -> length ts = length vs ->
    stands_frame P h (GEachM a ks ts) (FEach (combine ts vs))
| SfBody : forall t x v, stands P h x v -> stands_frame P h (GBody t x) (FBody t v)
| SfStep : forall t s i vs, upto P h s i vs -> stands_frame P h (GStep t s i) (FStep t vs)
| SfSend : forall s i vs, upto P h s i vs -> stands_frame P h (GSend s i) (FSend vs)
| SfSendM : forall a ks m vs, whole P h (HMap a) -> nth_error h a = Some (BMap m) -> entries P h m ks vs -> stands_frame P h (GSendM a ks) (FSend vs).
Inductive stands_prod (P : nat -> Prop) (h : heap) : hprod -> producer -> Prop :=
| SpRun : forall k k', Forall2 (stands_frame P h) k k' -> stands_prod P h (GRun k) (PRun k')
| SpPut : forall x v k k', stands P h x v -> Forall2 (stands_frame P h) k k' -> stands_prod P h (GPut x k) (PSend v k')
| SpClosed : stands_prod P h GClosed PClosed.

Lemma whole_arr : forall P h s, whole P h (HArr s) -> P (s_addr s).
Proof. intros P h s (v & H). inversion H. assumption. Qed.
Lemma whole_map : forall P h a, whole P h (HMap a) -> P a.
Proof. intros P h a (v & H). inversion H. assumption. Qed.
Lemma whole_move : forall (P Q : nat -> Prop) h h' x, (forall a, P a -> Q a /\ nth_error h' a = nth_error h a) -> whole P h x -> whole Q h' x.
Proof. intros P Q h h' x Hm (v & H). exists v. eapply stands_move; eauto. Qed.

Lemma upto_move : forall (P Q : nat -> Prop) h h' s i vs, (forall a, P a -> Q a /\ nth_error h' a = nth_error h a) -> upto P h s i vs -> upto Q h' s i vs.
Proof.
  intros P Q h h' s i vs Hm (Hp & c & Hc & Hf). split; [eapply whole_move; eauto|]. exists c. split; [rewrite (cells_same h h' s); [exact Hc|apply Hm, (whole_arr _ _ _ Hp)]|].
  eapply Forall2_impl_both; [exact Hf|]. intros x y _ _ Hx. eapply stands_move; eauto.
Qed.

Lemma entries_move : forall (P Q : nat -> Prop) h h' m ks vs, (forall a, P a -> Q a /\ nth_error h' a = nth_error h a) -> entries P h m ks vs -> entries Q h' m ks vs.
Proof.
  intros P Q h h' m ks vs Hm H. eapply Forall2_impl_both; [exact H|]. intros x v _ _ (y & Hy & Hv). exists y. split; [exact Hy|]. eapply stands_move; eauto.
Qed.

Lemma frame_move : forall (P Q : nat -> Prop) h h' f f', (forall a, P a -> Q a /\ nth_error h' a = nth_error h a) -> stands_frame P h f f' -> stands_frame Q h' f f'.
Proof.
  intros P Q h h' f f' Hm H. destruct H as [s i ts vs Hu Hl|a ks ts m vs Hp Hb He Hl|t x v Hx|t s i vs Hu|s i vs Hu|a ks m vs Hp Hb He].
  - apply SfEach; [eapply upto_move; eauto|exact Hl].
  - destruct (Hm _ (whole_map _ _ _ Hp)) as [_ E]. eapply SfEachM; [eapply whole_move; eauto|rewrite E; exact Hb|eapply entries_move; eauto|exact Hl].
  - apply SfBody. eapply stands_move; eauto.
  - apply SfStep. eapply upto_move; eauto.
  - apply SfSend. eapply upto_move; eauto.
  - destruct (Hm _ (whole_map _ _ _ Hp)) as [_ E]. eapply SfSendM; [eapply whole_move; eauto|rewrite E; exact Hb|eapply entries_move; eauto].
Qed.

Lemma frames_move : forall (P Q : nat -> Prop) h h' k k', (forall a, P a -> Q a /\ nth_error h' a = nth_error h a) -> Forall2 (stands_frame P h) k k' -> Forall2 (stands_frame Q h') k k'.
Proof. intros P Q h h' k k' Hm H. eapply Forall2_impl_both; [exact H|]. intros x y _ _ Hx. eapply frame_move; eauto. Qed.

Lemma prod_move : forall (P Q : nat -> Prop) h h' q q', (forall a, P a -> Q a /\ nth_error h' a = nth_error h a) -> stands_prod P h q q' -> stands_prod Q h' q q'.
Proof.
  intros P Q h h' q q' Hm H. destruct H; constructor; try (eapply frames_move; eauto). eapply stands_move; eauto.
Qed.

Lemma prods_move : forall (P Q : nat -> Prop) h h' k k', (forall a, P a -> Q a /\ nth_error h' a = nth_error h a) -> Forall2 (stands_prod P h) k k' -> Forall2 (stands_prod Q h') k k'.
Proof. intros P Q h h' k k' Hm H. eapply Forall2_impl_both; [exact H|]. intros x y _ _ Hx. eapply prod_move; eauto. Qed.

Lemma upto_end : forall P h s i vs, upto P h s i vs -> (s_len s <= i)%nat -> vs = [].
Proof. intros P h s i vs (_ & c & Hc & Hf) Hi. rewrite (nth_error_cells _ _ _ _ Hc Hi) in Hf. inversion Hf. reflexivity. Qed.

Lemma upto_next : forall P h s i vs x, upto P h s i vs -> load h s i = Some x -> exists v r, vs = v :: r /\ stands P h x v /\ upto P h s (S i) r.
Proof.
  intros P h s i vs x (Hp & c & Hc & Hf) Hl. unfold load in Hl. rewrite Hc in Hl. rewrite (skipn_nth _ _ _ _ Hl) in Hf. inversion Hf as [|? v ? r Hv Hr]; subst.
  exists v, r. split; [reflexivity|]. split; [exact Hv|]. split; [exact Hp|]. exists c. auto.
Qed.

Lemma is_ref_struct : forall P h x v, stands P h x v -> IsStructure v = is_ref x.
Proof. intros P h x v H. destruct H; auto. Qed.

Lemma entries_next : forall P h m x ks vs y, entries P h m (x :: ks) vs -> option_map snd (nth_error m x) = Some y -> exists v r, vs = v :: r /\ stands P h y v /\ entries P h m ks r.
Proof.
  intros P h m x ks vs y H Hy. inversion H as [|? v ? r (z & Hz & Hv) Hr]; subst. rewrite nth_error_map, Hy in Hz. injection Hz as <-. exists v, r. auto.
Qed.

Lemma numbered_fst : forall l t, length (map fst (numbered t l)) = length l.
Proof. intros. rewrite map_length. apply numbered_length. Qed.
Lemma numbered_snd : forall l t, map snd (numbered t l) = l.
Proof. induction l as [|v l IH]; intro t; cbn; [reflexivity|]. rewrite IH. reflexivity. Qed.
Lemma combine_split : forall A B (l : list (A * B)), combine (map fst l) (map snd l) = l.
Proof. intros A B l. induction l as [|[a b] l IH]; cbn; [reflexivity|]. rewrite IH. reflexivity. Qed.

Lemma numbered_combine : forall t l, combine (map fst (numbered t l)) l = numbered t l.
Proof. intros t l. revert t. induction l as [|v l IH]; intro t; cbn; [reflexivity|]. rewrite IH. reflexivity. Qed.

Lemma seq_entries : forall (R : hval -> val -> Prop) l vs, Forall2 R l vs -> forall pre,
  Forall2 (fun x v => exists y, nth_error (pre ++ l) x = Some y /\ R y v) (seq (length pre) (length l)) vs.
Proof.
  intros R l vs H. induction H as [|y v l vs Hyv H IH]; intro pre; cbn [seq length]; constructor.
  - exists y. split; [|exact Hyv]. rewrite nth_error_app2, Nat.sub_diag by lia. reflexivity.
  - specialize (IH (pre ++ [y])). rewrite app_length in IH. cbn [length] in IH. rewrite Nat.add_1_r in IH. rewrite <- app_assoc in IH. exact IH.
Qed.

Lemma reorder_forall2 : forall A B (R : A -> B -> Prop) l l' p, Forall2 R l l' -> Forall2 R (reorder p l) (reorder p l').
Proof.
  intros A B R l l' p H. induction p as [|i p IH]; [constructor|]. unfold reorder in *. cbn [flat_map]. apply Forall2_app; [|exact IH].
  destruct (nth_error l i) as [a|] eqn:E.
  - destruct (Forall2_nth _ _ _ _ _ _ _ H E) as (b & -> & Hr). repeat constructor. exact Hr.
  - assert (E' : nth_error l' i = None). { apply nth_error_None. rewrite <- (forall2_len _ _ _ _ _ H). apply nth_error_None. exact E. } rewrite E'. constructor.
Qed.

Lemma map_entries : forall P h m (vs : list val), Forall2 (stands P h) (map snd m) vs -> entries P h m (seq 0 (length m)) vs.
Proof. intros P h m vs H. unfold entries. rewrite <- (map_length snd m). apply (seq_entries _ _ _ H []). Qed.

Lemma obj_entries : forall P h m (vs : list (bytes * val)), Forall2 (fun x y => fst x = fst y /\ stands P h (snd x) (snd y)) m vs -> Forall2 (stands P h) (map snd m) (map snd vs).
Proof. intros P h m vs H. induction H as [|x y m vs [_ Hxy] H IH]; constructor; auto. Qed.

Lemma step_sim : forall W h q q', g_step W h q q' -> forall P qa, stands_prod P h q qa -> exists qa', prod_step W qa = Some qa' /\ stands_prod P h q' qa'.
Proof.
  intros W h q q' H P qa Hq.
  destruct H as [|s i ts k Hi|s i t ts k x Hl Hr|s i t ts k x Hl Hr|a ts k|a x ks t ts k m y Hb Hy Hr|a x ks t ts k m y Hb Hy Hr|t s vs k Hs|t a m vs k Hb Hv|t x k Hr
    |t s i k Hi|t s i k s' Hl|t s i k a m Hl Hb|t s i k x Hl Hr|s i k Hi|s i k x Hl|a k|a x ks k m y Hb Hy];
    inversion Hq as [k0 k' Hk| |]; subst; inversion Hk as [|f f' k1 k1' Hf Hk1]; subst; cbn [prod_step]; eexists; (split; [reflexivity|]).
  - constructor.
  - inversion Hf as [? ? ? vs Hu Hlen| | | | |]; subst. rewrite (upto_end _ _ _ _ _ Hu Hi). destruct ts; cbn [combine]; constructor; exact Hk1.
  - inversion Hf as [? ? ? vs Hu Hlen| | | | |]; subst. destruct (upto_next _ _ _ _ _ _ Hu Hl) as (v & r & -> & Hv & Hu'). cbn [combine]. rewrite (is_ref_struct _ _ _ _ Hv), Hr.
    constructor; [exact Hv|]. constructor; [constructor; exact Hv|]. constructor; [|exact Hk1]. apply SfEach; [exact Hu'|]. cbn [length] in Hlen. lia.
  - inversion Hf as [? ? ? vs Hu Hlen| | | | |]; subst. destruct (upto_next _ _ _ _ _ _ Hu Hl) as (v & r & -> & Hv & Hu'). cbn [combine]. rewrite (is_ref_struct _ _ _ _ Hv), Hr.
    constructor. constructor; [|exact Hk1]. apply SfEach; [exact Hu'|]. cbn [length] in Hlen. lia.
  - inversion Hf as [|? ? ? m vs Hp Hb He Hlen| | | |]; subst. inversion He; subst. destruct ts; cbn [combine]; constructor; exact Hk1.
  - inversion Hf as [|? ? ? m' vs Hp Hb' He Hlen| | | |]; subst. rewrite Hb in Hb'. injection Hb' as <-. destruct (entries_next _ _ _ _ _ _ _ He Hy) as (v & r & -> & Hv & He').
    cbn [combine]. rewrite (is_ref_struct _ _ _ _ Hv), Hr. constructor; [exact Hv|]. constructor; [constructor; exact Hv|]. constructor; [|exact Hk1].
    eapply SfEachM; [exact Hp|exact Hb|exact He'|]. cbn [length] in Hlen. lia.
  - inversion Hf as [|? ? ? m' vs Hp Hb' He Hlen| | | |]; subst. rewrite Hb in Hb'. injection Hb' as <-. destruct (entries_next _ _ _ _ _ _ _ He Hy) as (v & r & -> & Hv & He').
    cbn [combine]. rewrite (is_ref_struct _ _ _ _ Hv), Hr. constructor. constructor; [|exact Hk1].
    eapply SfEachM; [exact Hp|exact Hb|exact He'|]. cbn [length] in Hlen. lia.
  - inversion Hf as [| |? ? v Hv| | |]; subst. inversion Hv as [|? c vs' Hp Hc Hf'|]; subst. destruct Hs as (c' & Hc' & Hs). rewrite Hc in Hc'. injection Hc' as <-.
    assert (vs' = vs). { clear -Hs Hf'. revert vs Hs. induction Hf'; intros vs2 Hs; inversion Hs; subst; [reflexivity|]. f_equal; [eapply stands_fun; eauto|auto]. } subst vs'.
    constructor. constructor; [|exact Hk1].
    assert (Hx : stands_frame P h (GEach s 0 (map fst (numbered t vs))) (FEach (combine (map fst (numbered t vs)) vs))).
    { apply SfEach; [|apply numbered_fst]. split; [eexists; exact Hv|]. exists c. auto. }
    rewrite numbered_combine in Hx. exact Hx.
  - inversion Hf as [| |? ? v Hv0| | |]; subst. inversion Hv0 as [| |? c vs' Hp Hc Hf']; subst. rewrite Hb in Hc. injection Hc as <-.
    pose proof (obj_entries _ _ _ _ Hf') as Hf2.
    assert (map snd vs' = vs). { clear -Hv Hf2. revert vs Hv. induction Hf2; intros vs2 Hs; inversion Hs; subst; [reflexivity|]. f_equal; [eapply stands_fun; eauto|auto]. } subst vs.
    rewrite <- (forall2_len _ _ _ _ _ Hf').
    constructor. constructor; [|exact Hk1]. set (L := reorder (w_perm W t (length m)) (numbered (S t) (map snd vs'))).
    assert (Hx : stands_frame P h (GEachM a (reorder (w_perm W t (length m)) (seq 0 (length m))) (map fst L)) (FEach (combine (map fst L) (map snd L)))).
    { eapply SfEachM; [eexists; exact Hv0|exact Hb| |rewrite !map_length; reflexivity].
      unfold L. rewrite reorder_map, numbered_snd. apply reorder_forall2. apply map_entries. exact Hf2. }
    rewrite combine_split in Hx. exact Hx.
  - inversion Hf as [| |? ? v Hv| | |]; subst. rewrite <- (is_ref_struct _ _ _ _ Hv) in Hr. destruct v; try discriminate Hr; constructor; exact Hk1.
  - inversion Hf as [| | |? ? ? vs Hu| |]; subst. rewrite (upto_end _ _ _ _ _ Hu Hi). constructor. exact Hk1.
  - inversion Hf as [| | |? ? ? vs Hu| |]; subst. destruct (upto_next _ _ _ _ _ _ Hu Hl) as (v & r & -> & Hv & Hu'). inversion Hv as [|? c vs' Hp Hc Hf'|]; subst.
    constructor. constructor; [|constructor; [constructor; exact Hu'|exact Hk1]]. apply SfSend. split; [eexists; exact Hv|]. exists c. auto.
  - inversion Hf as [| | |? ? ? vs Hu| |]; subst. destruct (upto_next _ _ _ _ _ _ Hu Hl) as (v & r & -> & Hv & Hu'). inversion Hv as [| |? c vs' Hp Hc Hf']; subst.
    rewrite Hb in Hc. injection Hc as <-. rewrite <- (forall2_len _ _ _ _ _ Hf').
    constructor. constructor; [|constructor; [constructor; exact Hu'|exact Hk1]]. eapply SfSendM; [eexists; exact Hv|exact Hb|].
    rewrite reorder_map. apply reorder_forall2. apply map_entries. apply obj_entries. exact Hf'.
  - inversion Hf as [| | |? ? ? vs Hu| |]; subst. destruct (upto_next _ _ _ _ _ _ Hu Hl) as (v & r & -> & Hv & Hu'). rewrite <- (is_ref_struct _ _ _ _ Hv) in Hr.
    destruct v; try discriminate Hr; constructor; (constructor; [constructor; exact Hu'|exact Hk1]).
  - inversion Hf as [| | | |? ? vs Hu|]; subst. rewrite (upto_end _ _ _ _ _ Hu Hi). constructor. exact Hk1.
  - inversion Hf as [| | | |? ? vs Hu|]; subst. destruct (upto_next _ _ _ _ _ _ Hu Hl) as (v & r & -> & Hv & Hu'). constructor; [exact Hv|]. constructor; [constructor; exact Hu'|exact Hk1].
  - inversion Hf as [| | | | |? ? m vs Hp Hb He]; subst. inversion He; subst. constructor. exact Hk1.
  - inversion Hf as [| | | | |? ? m' vs Hp Hb' He]; subst. rewrite Hb in Hb'. injection Hb' as <-. destruct (entries_next _ _ _ _ _ _ _ He Hy) as (v & r & -> & Hv & He').
    constructor; [exact Hv|]. constructor; [|exact Hk1]. eapply SfSendM; eauto.
Qed.

(** ** One evaluation *)
Definition held (O : nat -> Prop) (e : hthread) (a : nat) : Prop := O a \/ In a (bufs e).
Definition chans (l : list nat) : list hval := map HChan (rev l).

Record thr (O : nat -> Prop) (h : heap) (root : hval) (rv : val) (e : hthread) (c : cstate) : Prop := {
  th_root : stands (free h (held O e)) h root rv;
  th_prods : Forall2 (stands_prod (free h (held O e)) h) (g_prods e) (c_prods c);
  th_O : forall a, O a -> (a < length h)%nat;
  th_mode : match g_mode e, c_mode c with
            | GoRun, CRun | GoFirst, CFirst => sim O h (g_m e) (c_m c) (chans (c_chans c))
            | GoRep ord, CRep ord' => ord = ord' /\ sim O h (g_m e) (c_m c) (chans (c_chans c))
            | GoDone (ROk s), CDone (OK l) => free h O (s_addr s) /\ stands_list (free h O) h s l
            | GoDone (RFail x), CDone (Fail x') => x = x'
            | GoDone RPanic, CDone Panics => True
            | _, _ => False
            end
}.

Lemma vals_update : forall O h m ma lv h' vals' lv', sim O h m ma lv -> moves (addrs (h_vals m)) (addrs vals') h h' -> elems h' vals' lv' ->
  sim O h' (h_set_vals m vals') ma lv' /\ moves (ours m) (ours (h_set_vals m vals')) h h'.
Proof.
  intros O h m ma lv h' vals' lv' Hs Hm Hl'. set (m' := h_set_vals m vals').
  assert (Hm' : moves (ours m) (ours m') h h').
  { destruct Hm as (M1 & M2 & M3). split; [exact M1|]. split.
    - intros a Ha Hn. apply M2; [exact Ha|]. intro. apply Hn. unfold ours, mine. rewrite !in_app_iff. auto.
    - intros a Ha. unfold ours, mine in *. cbn [m' h_set_vals h_out h_stk h_vals] in Ha. rewrite !in_app_iff in *. destruct Ha as [Ha|[Ha|Ha]]; auto.
      destruct (M3 _ Ha); auto. }
  split; [|exact Hm']. destruct Hs as [[H1 H2 H3 H4 H5 H6] N1 N2 N3 N4]. destruct Hm as (M1 & M2 & M3).
  assert (Hsame : forall a, addrs (h_out m) a \/ addrs (h_stk m) a -> nth_error h' a = nth_error h a).
  { intros a Ha. apply M2.
    - apply N2. unfold mine. rewrite !in_app_iff. unfold addrs in Ha. tauto.
    - intro Hb. unfold mine in N1. rewrite app_assoc in N1. apply nodup_app in N1 as (_ & _ & Hd). apply (Hd a); [apply in_app_iff; exact Ha|exact Hb]. }
  apply sim_intro; cbn [m' h_set_vals h_out h_dot h_sp h_pc h_tick h_vals h_stk]; auto.
  - unfold out_elems. cbn [m' h_set_vals h_out]. destruct (h_out m) as [s|] eqn:Eo, (m_out ma) as [l|]; auto. destruct H1 as (c & Hc & Hf). exists c.
    split; [rewrite (cells_same h h' s); [exact Hc|apply Hsame; left; left; reflexivity]|]. eapply stands_all_ours; eauto.
  - eapply stands_ours; eauto.
  - unfold stk_elems. cbn [m' h_set_vals h_stk]. destruct (h_stk m) as [s|] eqn:Es.
    + destruct H3 as (c & Hc & Hf). exists c. split; [cbn; rewrite (cells_same h h' s); [exact Hc|apply Hsame; right; left; reflexivity]|]. eapply stands_all_ours; eauto.
    + rewrite H3. exists []. split; [reflexivity|constructor].
  - unfold mine in *. cbn [m' h_set_vals h_out h_stk h_vals].
    rewrite <- (app_nil_r (addr_of vals')), app_assoc. apply (nodup_mid (addr_of (h_out m) ++ addr_of (h_stk m)) (addr_of (h_vals m)) (addr_of vals') [] (length h));
      rewrite ?app_nil_r, <- ?app_assoc; [exact N1|intros x Hx; apply N2; exact Hx|apply addr_nodup|].
    intros x Hx. destruct (M3 _ Hx); [auto|right; lia].
  - intros a Ha. destruct Hm' as (_ & _ & Hm'). destruct (Hm' _ Ha) as [Hb|Hb].
    + destruct (N2 _ Hb). split; [lia|assumption].
    + split; [lia|]. intro Ho. apply N3 in Ho. lia.
  - intros a Ha. apply N3 in Ha. lia.
Qed.

(** what survives when our own storage moves *)
Lemma keeps : forall (O A A' : nat -> Prop) h h', moves A A' h h' -> forall a, free h (fun a => O a \/ A a) a -> free h' (fun a => O a \/ A' a) a /\ nth_error h' a = nth_error h a.
Proof.
  intros O A A' h h' (M1 & M2 & M3) a [Hl Hn]. split; [|apply M2; [exact Hl|tauto]]. split; [lia|]. intros [Ho|Ha]; [tauto|]. destruct (M3 _ Ha); [tauto|lia].
Qed.

Lemma elems_fun : forall h s l l', elems h s l -> elems h s l' -> l = l'.
Proof. intros h [s|] l l' H H'; cbn in *; congruence. Qed.

Lemma chans_len : forall l, length (chans l) = length l.
Proof. intro l. unfold chans. rewrite map_length, rev_length. reflexivity. Qed.

Lemma vals_len : forall O h m ma l, sim O h m ma (chans l) -> len_of (h_vals m) = length l.
Proof.
  intros O h m ma l [_ _ _ _ H]. rewrite <- chans_len. destruct (h_vals m) as [s|]; cbn in *; [symmetry; eapply cells_length; eauto|rewrite H; reflexivity].
Qed.

Lemma top_ok : forall O h m ma l i, sim O h m ma (chans l) -> top_chan h m = Some i -> exists r, l = i :: r.
Proof.
  intros O h m ma l i [_ _ _ _ H] Ht. unfold top_chan in Ht. destruct (h_vals m) as [s|]; [|discriminate]. cbn in H. unfold load in Ht. rewrite H in Ht.
  pose proof (cells_length _ _ _ H) as Hlen. rewrite chans_len in Hlen. destruct l as [|j r].
  - cbn in *. destruct (s_len s - 1)%nat; discriminate.
  - exists r. unfold chans in Ht. cbn [rev] in Ht. rewrite map_app in Ht. cbn [map] in Ht. rewrite nth_error_app2 in Ht by (rewrite map_length, rev_length; cbn [length] in Hlen; lia).
    rewrite map_length, rev_length in Ht. cbn [length] in Hlen. replace (s_len s - 1 - length r)%nat with 0%nat in Ht by lia. injection Ht as ->. reflexivity.
Qed.

Lemma c_exec_plain : forall W p rv ord c, match op_of_num (order_op ord) with Some o => looping o = false | None => True end ->
  c_exec W p rv ord c = after c (exec W p rv ord (c_m c)).
Proof. intros W p rv ord c H. unfold c_exec. destruct (op_of_num (order_op ord)) as [[]|]; try discriminate H; reflexivity. Qed.

Lemma sim_done : forall O h m ma lv x v, sim O h m ma lv -> stands (free h (bad O m)) h x v -> stands (free h O) h x v.
Proof.
  intros O h m ma lv x v Hs Hx. eapply stands_move; [|exact Hx]. intros a [Hl Hn]. split; [|reflexivity]. split; [exact Hl|]. intro. apply Hn. left. assumption.
Qed.

Lemma held_run : forall O e, (forall r, g_mode e <> GoDone r) -> forall a, held O e a <-> bad O (g_m e) a.
Proof. intros O [m [] ps] H a; unfold held, bad, bufs, mine; cbn; try tauto. exfalso. eapply H. reflexivity. Qed.

Lemma main_sim : forall W p root rv O h e c h' e', thr O h root rv e c -> h_main W p root h (g_m e) (g_prods e) (g_mode e) h' e' ->
  exists c', main_step W p rv c = Some c' /\ thr O h' root rv e' c' /\ moves (fun a => In a (bufs e)) (fun a => In a (bufs e')) h h'.
Proof.
  intros W p root rv O h [m md ps] [ma cs cm pa] h' e' [Hroot Hprods HO Hmode] H. cbn [g_m g_prods g_mode c_m c_chans c_mode c_prods] in *.
  (* ending *)
  assert (Hdone : forall m' h2 r r', (match r, r' with
                     | ROk s, OK l => free h2 O (s_addr s) /\ stands_list (free h2 O) h2 s l | RFail x, Fail x' => x = x' | RPanic, Panics => True | _, _ => False end) ->
     (forall r, md <> GoDone r) -> moves (ours m) (ours m') h h2 -> forall mb pa' ps', Forall2 (stands_prod (free h (bad O m)) h) ps' pa' ->
     thr O h2 root rv (mkT m' (GoDone r) ps') (mkC mb cs (CDone r') pa') /\ moves (fun a => In a (bufs (mkT m md ps))) (fun a => In a (bufs (mkT m' (GoDone r) ps'))) h h2).
  { intros m' h2 r r' Hr Hmd M mb pa' ps' Hps.
    assert (K : forall a, free h (bad O m) a -> free h2 (held O (mkT m' (GoDone r) ps')) a /\ nth_error h2 a = nth_error h a).
    { intros a Ha. destruct (keeps O (ours m) (ours m') h h2 M a Ha) as [[K1 K2] K3]. split; [|exact K3]. split; [exact K1|]. unfold held. cbn. tauto. }
    split.
    - constructor; cbn [g_mode c_mode g_prods c_prods].
      + eapply stands_move; [exact K|]. eapply stands_move; [|exact Hroot]. intros a [Ha1 Ha2]. split; [|reflexivity]. split; [exact Ha1|].
        intro Hb. apply Ha2. apply (held_run O (mkT m md ps) Hmd). exact Hb.
      + eapply prods_move; [exact K|exact Hps].
      + intros a Ha. apply HO in Ha. destruct M as (M & _). lia.
      + destruct r, r'; try contradiction; auto.
    - assert (Eb : bufs (mkT m md ps) = mine m). { unfold bufs, mine. cbn. destruct md; try reflexivity. exfalso. eapply Hmd. reflexivity. }
      rewrite Eb. eapply moves_less; [exact M|]. intros a []. }
  assert (Hrun : forall m' md' h2 ps' ma' cs' cm' pa', (forall r, md <> GoDone r) -> (forall r, md' <> GoDone r) -> moves (ours m) (ours m') h h2 ->
     Forall2 (stands_prod (free h2 (bad O m')) h2) ps' pa' -> sim O h2 m' ma' (chans cs') ->
     (match md', cm' with GoRun, CRun | GoFirst, CFirst => True | GoRep a, CRep b => a = b | _, _ => False end) ->
     thr O h2 root rv (mkT m' md' ps') (mkC ma' cs' cm' pa') /\ moves (fun a => In a (bufs (mkT m md ps))) (fun a => In a (bufs (mkT m' md' ps'))) h h2).
  { intros m' md' h2 ps' ma' cs' cm' pa' Hmd Hmd' M Hps Hs Hcm.
    assert (Eb : bufs (mkT m md ps) = mine m). { unfold bufs, mine. cbn. destruct md; try reflexivity. exfalso. eapply Hmd. reflexivity. }
    assert (Eb' : bufs (mkT m' md' ps') = mine m'). { unfold bufs, mine. cbn. destruct md'; try reflexivity. exfalso. eapply Hmd'. reflexivity. }
    split; [|rewrite Eb, Eb'; exact M]. constructor; cbn [g_mode c_mode g_prods c_prods g_m c_m c_chans]; unfold held; rewrite ?Eb'.
    - eapply stands_ours; [exact M|]. unfold held in Hroot. rewrite Eb in Hroot. exact Hroot.
    - exact Hps.
    - intros a Ha. apply HO in Ha. destruct M as (M & _). lia.
    - destruct md', cm'; try contradiction; auto. }
  assert (Hps : forall r, (forall r, md <> GoDone r) -> Forall2 (stands_prod (free h (bad O m)) h) ps pa \/ r = RPanic).
  { intros r Hmd. left. eapply prods_move; [|exact Hprods]. intros a [Ha1 Ha2]. split; [|reflexivity]. split; [exact Ha1|]. intro Hb. apply Ha2. apply (held_run O (mkT m md ps) Hmd). exact Hb. }
  assert (Hps1 : (forall r, md <> GoDone r) -> Forall2 (stands_prod (free h (bad O m)) h) ps pa) by (intro Hmd; destruct (Hps (RFail (RUnimplemented 0 0)) Hmd) as [?|?]; [assumption|discriminate]).
  clear Hps.
  assert (Hroot1 : (forall r, md <> GoDone r) -> stands (free h (bad O m)) h root rv).
  { intro Hmd. eapply stands_move; [|exact Hroot]. intros a [Ha1 Ha2]. split; [|reflexivity]. split; [exact Ha1|]. intro Hb. apply Ha2. apply (held_run O (mkT m md ps) Hmd). exact Hb. }
  assert (Hpm : forall m' h2, moves (ours m) (ours m') h h2 -> (forall r, md <> GoDone r) -> Forall2 (stands_prod (free h2 (bad O m')) h2) ps pa).
  { intros m' h2 M Hmd. eapply prods_move; [|apply Hps1; exact Hmd]. apply keeps. exact M. }
  destruct H as [s Hpc Eo|Hpc Eo|Hpc Eord|ord h' m' Hpc Eord Hx|ord x h' m' Hpc Eord Hx|ord o rv0 ma0 Hpc Eord Ho Hno Hr0 Hm0 He|ord o Hpc Eord Ho Hlo Epc|ord o epc Hpc Eord Ho Hlo Epc Hlen
    |ord o epc s q t h1 vs Hpc Eord Ho Hlo Epc Eo Hlen Happ Hst|ord Hpc Eord Ho Hlen|ord Hpc Eord Ho Hlen|i x k Ht Hi|i Ht Hi|ord i x k pc Ht Hi Epc|ord i x k Ht Hi Epc|ord i s Ht Hi Ev].
  1-11: destruct cm as [| | |]; try contradiction; pose proof Hmode as Hs; assert (Hmd : forall r, GoRun <> GoDone r) by discriminate;
        specialize (Hps1 Hmd); specialize (Hroot1 Hmd); pose proof (st_pc _ _ _ _ (si_m _ _ _ _ _ Hs)) as Esp;
        unfold main_step; cbn [c_mode c_m c_chans c_prods]; rewrite <- Esp;
        first [rewrite (proj2 (Z.ltb_ge _ _) Hpc)|rewrite (proj2 (Z.ltb_lt _ _) Hpc), Eord]; try rewrite <- Esp; pose proof (sim_pc _ _ _ _ _ (h_pc m + 1) Hs) as Hs1;
        eexists; (split; [reflexivity|]).
  - (* NEnd *) apply Hdone; auto using moves_refl. pose proof (st_out _ _ _ _ (si_m _ _ _ _ _ Hs)) as Hout. rewrite Eo in Hout. destruct (m_out ma) as [l|]; [|contradiction].
    destruct Hout as (c & Hc & Hf). split.
    + split; [eapply cells_bound; eauto|]. apply (si_lt _ _ _ _ _ Hs). unfold mine. rewrite Eo. left. reflexivity.
    + exists c. split; [exact Hc|]. eapply Forall2_impl_both; [exact Hf|]. intros. eapply sim_done; eauto.
  - (* NEndNil *) apply Hdone; auto using moves_new. pose proof (st_out _ _ _ _ (si_m _ _ _ _ _ Hs)) as Hout. rewrite Eo in Hout. destruct (m_out ma) as [l|]; [contradiction|]. split.
    + split; [rewrite app_length; cbn; lia|]. cbn [s_addr]. intro Ha. apply HO in Ha. lia.
    + exists []. split; [|constructor]. unfold cells. cbn [s_addr s_off s_len s_cap]. rewrite nth_error_last. reflexivity.
  - (* NNoOrder *) apply Hdone; auto using moves_refl.
  - (* NExec *) destruct (exec_sim _ _ _ _ _ _ _ _ Hx O _ _ rv Hs1) as (Hl & ma' & E & Hs2 & M & Evs); [exact Hroot1|].
    rewrite c_exec_plain by exact Hl. cbn [c_m]. rewrite E. unfold after. cbn [c_chans c_prods]. apply Hrun; auto.
  - (* NFails *) destruct (fails_sim _ _ _ _ _ _ _ _ _ Hx O _ _ rv Hs1) as (Hl & E & M & _); [exact Hroot1|].
    rewrite c_exec_plain by exact Hl. cbn [c_m]. rewrite E. unfold after, done. cbn [c_chans c_prods c_m]. apply Hdone; auto.
  - (* NPanics *) assert (Hl : match op_of_num (order_op ord) with Some o => looping o = false | None => True end) by (rewrite Ho; destruct o; try reflexivity; exfalso; tauto).
    rewrite c_exec_plain by exact Hl. cbn [c_m]. rewrite (stands_fun _ _ _ _ _ _ Hr0 Hroot1) in *.
    rewrite (exec_any W p rv ord (free h (bad O m)) any h _ _ ma0 Hl (si_m _ _ _ _ _ Hs1) Hm0) in He. destruct (exec W p rv ord (set_pc ma (h_pc m + 1))); try discriminate He.
    unfold after, done. cbn [c_chans c_prods c_m]. apply Hdone; auto using moves_refl.
  - (* NLoopPanics *) unfold c_exec. rewrite Ho. destruct Hlo as [->| ->]; rewrite Epc; unfold done; cbn [c_chans c_prods c_m]; apply Hdone; auto using moves_refl.
  - (* NLoopEmpty *)
    assert (El : g_list (m_out ma) = []).
    { pose proof (st_out _ _ _ _ (si_m _ _ _ _ _ Hs)) as Hout. destruct (h_out m) as [s|], (m_out ma) as [l|]; try contradiction; [|reflexivity]. destruct Hout as (c & Hc & Hf).
      cbn in Hlen. apply cells_length in Hc. apply forall2_len in Hf. cbn. destruct l; [reflexivity|]. cbn in Hf. lia. }
    assert (E : c_exec W p rv ord (mkC (set_pc ma (h_pc m + 1)) cs CRun pa) = after (mkC (set_pc ma (h_pc m + 1)) cs CRun pa) (branch p epc (set_pc ma (h_pc m + 1)))).
    { unfold c_exec. rewrite Ho. destruct Hlo as [->| ->]; rewrite Epc; unfold c_looptop; cbn [c_m set_pc m_out]; rewrite El; reflexivity. }
    rewrite E. unfold branch. destruct ((epc <=? 0) || (epc >? prog_size p)); unfold after, done; cbn [c_chans c_prods c_m].
    + apply Hdone; auto using moves_refl.
    + apply Hrun; auto using moves_refl. apply (sim_pc _ _ _ _ _ epc) in Hs1. exact Hs1.
  - (* NLoop *)
    pose proof (st_out _ _ _ _ (si_m _ _ _ _ _ Hs)) as Hout. rewrite Eo in Hout. destruct (m_out ma) as [l|] eqn:Em; [|contradiction]. destruct Hout as (c & Hc & Hf).
    assert (Hnil : exists v0 l0, l = v0 :: l0). { destruct l as [|v0 l0]; [|eauto]. inversion Hf; subst. apply cells_length in Hc. cbn in Hc. lia. }
    destruct Hnil as (v0 & l0 & ->).
    destruct (append_ok _ _ _ _ _ _ Happ (si_vals _ _ _ _ _ Hs1)) as [Hcv Mv]. cbn [h_set_pc h_vals] in Mv.
    destruct (vals_update O h _ _ _ h1 (Some vs) _ Hs1 Mv Hcv) as [Hs2 M2].
    destruct (set_out_sim O h1 _ _ _ (h1 ++ [BArr []]) (Some (mkSl (length h1) 0 0 0)) (Some []) Hs2) as [Hs3 M3].
    { eapply moves_less; [apply moves_alloc|]. intros a [<-|[]]. right. reflexivity. }
    { cbn [acc_elems]. exists []. split; [|constructor]. unfold cells. cbn [s_addr s_off s_len s_cap]. rewrite nth_error_last. reflexivity. }
    set (m3 := h_set_out (h_set_vals (h_set_pc m (h_pc m + 1)) (Some vs)) (Some (mkSl (length h1) 0 0 0))) in *.
    assert (M13 : moves (ours m) (ours m3) h (h1 ++ [BArr []])) by (eapply moves_trans; [exact M2|exact M3]).
    (* the array of the old vm.out is no longer written *)
    assert (Hsa : nth_error (h1 ++ [BArr []]) (s_addr s) = nth_error h (s_addr s) /\ free (h1 ++ [BArr []]) (bad O m3) (s_addr s)).
    { assert (Hin : In (s_addr s) (mine m)) by (unfold mine; rewrite Eo; left; reflexivity).
      destruct (si_lt _ _ _ _ _ Hs _ Hin) as [Hlt HnO]. pose proof (si_nd _ _ _ _ _ Hs) as Nd. unfold mine in Nd. rewrite Eo in Nd. cbn [addr_of app] in Nd.
      apply NoDup_cons_iff in Nd as [Nd _]. rewrite in_app_iff in Nd. destruct Mv as (Mv1 & Mv2 & Mv3). split.
      - rewrite nth_error_app1 by lia. apply Mv2; [exact Hlt|]. unfold addrs. tauto.
      - split; [rewrite app_length; lia|]. intros [Hb|Hb]; [auto|]. unfold m3, mine in Hb. cbn [h_set_out h_set_vals h_set_pc h_out h_stk h_vals addr_of] in Hb.
        rewrite !in_app_iff in Hb. destruct Hb as [[Hb|[]]|[Hb|Hb]]; [cbn in Hb; lia|tauto|]. destruct (Mv3 _ Hb) as [Hb2|Hb2]; [unfold addrs in Hb2; tauto|lia]. }
    destruct Hsa as [Hsa1 Hsa2].
    assert (Hs4 : upto (free (h1 ++ [BArr []]) (bad O m3)) (h1 ++ [BArr []]) s 0 (v0 :: l0)).
    { assert (Hc4 : cells (h1 ++ [BArr []]) s = Some c) by (rewrite (cells_same h _ s Hsa1); exact Hc).
      assert (Hf4 : Forall2 (stands (free (h1 ++ [BArr []]) (bad O m3)) (h1 ++ [BArr []])) c (v0 :: l0)) by (eapply stands_all_ours; [exact M13|exact Hf]).
      split; [eexists; eapply RpArr; eauto|]. exists c. auto. }
    assert (Hstart : exists qa, start o (h_tick m) (v0 :: l0) = (qa, t) /\ stands_prod (free (h1 ++ [BArr []]) (bad O m3)) (h1 ++ [BArr []]) q qa).
    { assert (Hvs : forall vs0, stands_list any h1 s vs0 -> vs0 = v0 :: l0).
      { intros vs0 (c' & Hc' & Hf'). assert (Hc1 : cells h1 s = Some c).
        { rewrite (cells_same h h1 s); [exact Hc|]. destruct Mv as (Mv1 & _). rewrite <- Hsa1. symmetry. apply nth_error_app1. apply cells_bound in Hc. lia. }
        rewrite Hc1 in Hc'. injection Hc' as <-.
        assert (Hf1 : Forall2 (stands any h1) c (v0 :: l0)).
        { eapply Forall2_impl_both; [exact Hf|]. intros y w _ _ Hy. eapply stands_move; [|exact Hy]. intros a [Ha1 Ha2]. split; [exact I|]. destruct M2 as (_ & M2 & _). apply M2; [exact Ha1|].
          intro Hb. apply Ha2. right. exact Hb. }
        clear -Hf' Hf1. revert vs0 Hf'. induction Hf1; intros vs2 Hs; inversion Hs; subst; [reflexivity|]. f_equal; [eapply stands_fun; eauto|auto]. }
      destruct Hst as [vs0 Hvs0|vs0 Hvs0]; rewrite (Hvs _ Hvs0).
      - eexists. split; [reflexivity|]. constructor. constructor; [|constructor]. apply SfStep. exact Hs4.
      - eexists. split; [reflexivity|]. constructor. constructor; [|constructor]. rewrite <- (numbered_combine (h_tick m) (v0 :: l0)). rewrite (numbered_combine (h_tick m) (v0 :: l0)) at 1.
        apply SfEach; [exact Hs4|apply numbered_fst]. }
    destruct Hstart as (qa & Estart & Hqa). pose proof (forall2_len _ _ _ _ _ Hps1) as Elen.
    assert (E : c_exec W p rv ord (mkC (set_pc ma (h_pc m + 1)) cs CRun pa) =
      mkC (set_tick (set_out (set_pc ma (h_pc m + 1)) (Some [])) t) (length pa :: cs) CFirst (pa ++ [qa])).
    { unfold c_exec. rewrite Ho. rewrite (sim_tick_eq _ _ _ _ _ Hs) in Estart. destruct Hlo as [->| ->]; rewrite Epc; unfold c_looptop; cbn [c_m set_pc m_out m_tick c_prods c_chans]; rewrite Em; cbn [g_list];
        rewrite Estart; reflexivity. }
    rewrite E. apply Hrun; [exact Hmd|discriminate|exact M13| | |exact I].
    + apply Forall2_app; [|constructor; [exact Hqa|constructor]]. exact (Hpm m3 _ M13 Hmd).
    + unfold chans. cbn [rev]. rewrite map_app. cbn [map]. rewrite <- Elen. apply (sim_tick _ _ _ _ _ t) in Hs3. exact Hs3.
  - (* NRepPanics *) rewrite (vals_len _ _ _ _ _ Hs) in Hlen. destruct cs; [|discriminate]. unfold c_exec. rewrite Ho. unfold done; cbn [c_chans c_prods c_m]; apply Hdone; auto using moves_refl.
  - (* NRep *) rewrite (vals_len _ _ _ _ _ Hs) in Hlen. unfold c_exec. rewrite Ho. cbn [c_chans c_m c_prods]. destruct cs as [|j r]; [exfalso; apply Hlen; reflexivity|].
    apply Hrun; auto using moves_refl; try discriminate.
  - (* NFirst *) destruct cm as [| | |]; try contradiction. assert (Hmd : forall r, GoFirst <> GoDone r) by discriminate. specialize (Hps1 Hmd).
    destruct (top_ok _ _ _ _ _ _ Hmode Ht) as (r & ->). destruct (Forall2_nth _ _ _ _ _ _ _ Hps1 Hi) as (qa & Hqa & Hsp). inversion Hsp as [|? v ? k' Hv Hk|]; subst.
    unfold main_step. cbn [c_mode c_m c_chans c_prods]. rewrite Hqa. eexists. split; [reflexivity|].
    apply Hrun; [exact Hmd|discriminate|apply moves_refl| | |exact I].
    + apply Forall2_set_nth; [exact Hps1|]. constructor. exact Hk.
    + apply sim_dot; auto.
  - (* NFirstNone *) destruct cm as [| | |]; try contradiction. assert (Hmd : forall r, GoFirst <> GoDone r) by discriminate. specialize (Hps1 Hmd).
    destruct (top_ok _ _ _ _ _ _ Hmode Ht) as (r & ->). destruct (Forall2_nth _ _ _ _ _ _ _ Hps1 Hi) as (qa & Hqa & Hsp). inversion Hsp; subst.
    unfold main_step. cbn [c_mode c_m c_chans c_prods]. rewrite Hqa. eexists. split; [reflexivity|].
    apply Hrun; auto using moves_refl; try discriminate. apply sim_dot; auto. apply RpAtom. reflexivity.
  - (* NNext *) destruct cm as [| | |]; try contradiction. destruct Hmode as [<- Hmode]. assert (Hmd : forall r, GoRep ord <> GoDone r) by discriminate. specialize (Hps1 Hmd).
    destruct (top_ok _ _ _ _ _ _ Hmode Ht) as (r & ->). destruct (Forall2_nth _ _ _ _ _ _ _ Hps1 Hi) as (qa & Hqa & Hsp). inversion Hsp as [|? v ? k' Hv Hk|]; subst.
    unfold main_step. cbn [c_mode c_m c_chans c_prods]. rewrite Hqa, Epc. unfold branch. eexists. split; [reflexivity|]. cbn [c_m].
    assert (Hps2 : Forall2 (stands_prod (free h (bad O m)) h) (set_nth i (GRun k) ps) (set_nth i (PRun k') pa)) by (apply Forall2_set_nth; [exact Hps1|constructor; exact Hk]).
    destruct ((pc <=? 0) || (pc >? prog_size p)); unfold after, done; cbn [c_chans c_prods c_m].
    + apply Hdone; auto using moves_refl.
    + apply Hrun; auto using moves_refl; try discriminate. apply sim_pc. apply sim_dot; auto.
  - (* NNextPanics *) destruct cm as [| | |]; try contradiction. destruct Hmode as [<- Hmode]. assert (Hmd : forall r, GoRep ord <> GoDone r) by discriminate. specialize (Hps1 Hmd).
    destruct (top_ok _ _ _ _ _ _ Hmode Ht) as (r & ->). destruct (Forall2_nth _ _ _ _ _ _ _ Hps1 Hi) as (qa & Hqa & Hsp). inversion Hsp as [|? v ? k' Hv Hk|]; subst.
    unfold main_step. cbn [c_mode c_m c_chans c_prods]. rewrite Hqa, Epc. eexists. split; [reflexivity|]. unfold done; cbn [c_chans c_prods c_m].
    apply Hdone; auto using moves_refl. apply Forall2_set_nth; [exact Hps1|constructor; exact Hk].
  - (* NLast *) destruct cm as [| | |]; try contradiction. destruct Hmode as [<- Hmode]. assert (Hmd : forall r, GoRep ord <> GoDone r) by discriminate. specialize (Hps1 Hmd).
    destruct (top_ok _ _ _ _ _ _ Hmode Ht) as (r & ->). destruct (Forall2_nth _ _ _ _ _ _ _ Hps1 Hi) as (qa & Hqa & Hsp). inversion Hsp; subst.
    unfold main_step. cbn [c_mode c_m c_chans c_prods]. rewrite Hqa. eexists. split; [reflexivity|].
    set (s' := mkSl (s_addr s) (s_off s) (s_len s - 1) (s_cap s)).
    pose proof (si_vals _ _ _ _ _ Hmode) as Hvv. rewrite Ev in Hvv. unfold elems in Hvv. pose proof (cells_length _ _ _ Hvv) as Hvl. rewrite chans_len in Hvl. cbn [length] in Hvl.
    assert (Hsd : sim O h (h_set_dot m (HAtom VNil)) (set_dot ma VNil) (chans (i :: r))) by (apply sim_dot; [exact Hmode|apply RpAtom; reflexivity]).
    assert (Hv' : elems h (Some s') (chans r)).
    { unfold elems, cells in *. cbn [s' s_addr s_off s_len s_cap]. destruct (nth_error h (s_addr s)) as [[b| |]|]; try discriminate.
      destruct (Nat.leb_spec (s_off s + s_cap s) (length b)); [|discriminate]. destruct (Nat.leb_spec (s_len s) (s_cap s)); [|discriminate]. cbn [andb] in Hvv.
      destruct (Nat.leb_spec (s_len s - 1) (s_cap s)); [|lia]. cbn [andb]. injection Hvv as Hvv. f_equal.
      replace (firstn (s_len s - 1) (skipn (s_off s) b)) with (firstn (s_len s - 1) (firstn (s_len s) (skipn (s_off s) b))) by (rewrite firstn_firstn; f_equal; lia).
      rewrite Hvv. unfold chans. cbn [rev]. rewrite map_app, firstn_app. cbn [map]. rewrite map_length, rev_length. replace (s_len s - 1 - length r)%nat with 0%nat by lia. cbn [firstn].
      rewrite app_nil_r. apply firstn_all2. rewrite map_length, rev_length. lia. }
    assert (Mr : moves (addrs (h_vals (h_set_dot m (HAtom VNil)))) (addrs (Some s')) h h) by (cbn [h_set_dot h_vals]; rewrite Ev; apply moves_refl).
    destruct (vals_update O h (h_set_dot m (HAtom VNil)) _ _ h (Some s') _ Hsd Mr Hv') as [Hs2 M2].
    apply Hrun; [exact Hmd|discriminate|exact M2|exact (Hpm _ _ M2 Hmd)|exact Hs2|exact I].
Qed.

(** ** Any number of evaluations *)
Definition others (es : list evaluation) (j a : nat) : Prop := exists k e, k <> j /\ nth_error es k = Some e /\ In a (bufs (e_st e)).

Lemma sim_other : forall (O O' : nat -> Prop) h h' m ma lv, sim O h m ma lv -> (length h <= length h')%nat ->
  (forall a, (a < length h)%nat -> ~ O a -> nth_error h' a = nth_error h a) -> (forall a, O' a -> (a < length h')%nat /\ (O a \/ (length h <= a)%nat)) ->
  sim O' h' m ma lv.
Proof.
  intros O O' h h' m ma lv Hs Hl Hsame HO'. destruct (Hs) as [[H1 H2 H3 H4 H5 H6] N1 N2 N3 N4].
  assert (K : forall a, free h (bad O m) a -> free h' (bad O' m) a /\ nth_error h' a = nth_error h a).
  { intros a [Ha1 Ha2]. split; [|apply Hsame; [exact Ha1|intro; apply Ha2; left; assumption]]. split; [lia|]. intros [Hb|Hb]; [|apply Ha2; right; exact Hb].
    destruct (HO' _ Hb) as [_ [Hc|Hc]]; [apply Ha2; left; exact Hc|lia]. }
  assert (Hm : forall a, In a (mine m) -> nth_error h' a = nth_error h a) by (intros a Ha; destruct (N2 _ Ha); apply Hsame; auto).
  apply sim_intro; auto.
  - unfold out_elems. destruct (h_out m) as [s|] eqn:Eo, (m_out ma) as [l|]; auto. destruct H1 as (c & Hc & Hf). exists c.
    split; [rewrite (cells_same h h' s); [exact Hc|apply Hm; unfold mine; rewrite Eo; left; reflexivity]|]. eapply Forall2_impl_both; [exact Hf|]. intros. eapply stands_move; eauto.
  - eapply stands_move; eauto.
  - destruct (sim_stk _ _ _ _ _ Hs) as (c & Hc & Hf). exists c. split.
    + eapply elems_same; [exact Hc|]. intros a Ha. apply Hm. unfold mine. rewrite !in_app_iff. auto.
    + eapply Forall2_impl_both; [exact Hf|]. intros. eapply stands_move; eauto.
  - intros a Ha. destruct (N2 _ Ha) as [Ha1 Ha2]. split; [lia|]. intro Hb. destruct (HO' _ Hb) as [_ [Hc|Hc]]; [auto|lia].
  - intros a Ha. apply HO'. exact Ha.
  - eapply elems_same; [exact N4|]. intros a Ha. apply Hm. unfold mine. rewrite !in_app_iff. auto.
Qed.

Lemma thr_other : forall (O O' : nat -> Prop) h h' root rv e c, thr O h root rv e c -> (length h <= length h')%nat ->
  (forall a, (a < length h)%nat -> ~ O a -> nth_error h' a = nth_error h a) -> (forall a, O' a -> (a < length h')%nat /\ (O a \/ (length h <= a)%nat)) ->
  thr O' h' root rv e c.
Proof.
  intros O O' h h' root rv e c [H1 H2 H3 H4] Hl Hsame HO'.
  assert (K : forall a, free h (held O e) a -> free h' (held O' e) a /\ nth_error h' a = nth_error h a).
  { intros a [Ha1 Ha2]. split; [|apply Hsame; [exact Ha1|intro; apply Ha2; left; assumption]]. split; [lia|]. intros [Hb|Hb]; [|apply Ha2; right; exact Hb].
    destruct (HO' _ Hb) as [_ [Hc|Hc]]; [apply Ha2; left; exact Hc|lia]. }
  assert (K2 : forall a, free h O a -> free h' O' a /\ nth_error h' a = nth_error h a).
  { intros a [Ha1 Ha2]. split; [|apply Hsame; auto]. split; [lia|]. intros Hb. destruct (HO' _ Hb) as [_ [Hc|Hc]]; [auto|lia]. }
  constructor.
  - eapply stands_move; eauto.
  - eapply prods_move; eauto.
  - intros a Ha. apply HO'. exact Ha.
  - destruct (g_mode e) as [| |ord|[s|x|]], (c_mode c) as [| |ord'|[l|x'| |]]; try contradiction; auto.
    + eapply sim_other; eauto.
    + eapply sim_other; eauto.
    + destruct H4 as [-> H4]. split; [reflexivity|]. eapply sim_other; eauto.
    + destruct H4 as [H4 (cl & Hc & Hf)]. split; [apply K2; exact H4|]. exists cl. split; [rewrite (cells_same h h' s); [exact Hc|apply K2; exact H4]|].
      eapply Forall2_impl_both; [exact Hf|]. intros. eapply stands_move; eauto.
Qed.

Lemma thr_bufs : forall O h root rv e c, thr O h root rv e c -> NoDup (bufs e) /\ forall a, In a (bufs e) -> (a < length h)%nat /\ ~ O a.
Proof.
  intros O h root rv [m md ps] c [_ _ _ H]. unfold bufs. cbn [g_mode g_m] in *.
  destruct md as [| |ord|r], (c_mode c) as [| |ord'|r']; try contradiction; try (destruct r; contradiction); try (split; [constructor|intros a []]).
  - split; [apply (si_nd _ _ _ _ _ H)|apply (si_lt _ _ _ _ _ H)].
  - split; [apply (si_nd _ _ _ _ _ H)|apply (si_lt _ _ _ _ _ H)].
  - destruct H as [_ H]. split; [apply (si_nd _ _ _ _ _ H)|apply (si_lt _ _ _ _ _ H)].
Qed.

Definition ev_ok (y : sys) (j : nat) (e : evaluation) (c : cstate) : Prop :=
  scheduled (e_world e) (e_prog e) (e_val e) (e_tick0 e) c /\ thr (others (y_evals y) j) (y_heap y) (e_root e) (e_val e) (e_st e) c /\
  nth_error (y_heap y) (e_code e) = Some (BProg (e_prog e)).
Definition sys_ok (y : sys) : Prop := forall j e, nth_error (y_evals y) j = Some e -> exists c, ev_ok y j e c.

(** buffers hold arrays *)
Lemma bufs_arr : forall O h root rv e c a, thr O h root rv e c -> In a (bufs e) -> exists l, nth_error h a = Some (BArr l).
Proof.
  intros O h root rv [m md ps] c a [_ _ _ H] Ha. unfold bufs in Ha. cbn [g_mode g_m] in *.
  assert (K : forall ma lv, sim O h m ma lv -> In a (mine m) -> exists l, nth_error h a = Some (BArr l)).
  { intros ma lv Hs Hin. assert (E : forall s c0, elems h s c0 -> In a (addr_of s) -> exists l, nth_error h a = Some (BArr l)).
    { intros [s|] c0 Hc Hi; [|destruct Hi]. destruct Hi as [<-|[]]. cbn in Hc. unfold cells in Hc. destruct (nth_error h (s_addr s)) as [[l| |]|]; try discriminate. eauto. }
    unfold mine in Hin. rewrite !in_app_iff in Hin. destruct Hin as [Hin|[Hin|Hin]].
    - destruct Hs as [[H1 _ _ _ _ _] _ _ _ _]. destruct (h_out m) as [s|], (m_out ma) as [l|]; try contradiction. destruct H1 as (c0 & Hc & _). apply (E (Some s) c0); auto.
    - destruct (sim_stk _ _ _ _ _ Hs) as (c0 & Hc & _). eapply E; eauto.
    - eapply E; [apply (si_vals _ _ _ _ _ Hs)|exact Hin]. }
  destruct md as [| |ord|r], (c_mode c) as [| |ord'|r']; try contradiction; try (destruct r; contradiction); eauto. destruct H as [_ H]. eauto.
Qed.


Lemma others_upd : forall es j e st k a, nth_error es j = Some e -> others (set_nth j (with_st e st) es) k a ->
  others es k a \/ (k <> j /\ In a (bufs st)).
Proof.
  intros es j e st k a Hj (i & e' & Hne & Hi & Ha). rewrite nth_error_set_nth in Hi. destruct (Nat.eqb_spec j i) as [<-|Hji].
  - rewrite Hj in Hi. injection Hi as <-. right. split; [auto|exact Ha].
  - left. exists i, e'. auto.
Qed.

Lemma others_self : forall es j e st a, nth_error es j = Some e -> (others (set_nth j (with_st e st) es) j a <-> others es j a).
Proof.
  intros es j e st a Hj. split; intros (i & e' & Hne & Hi & Ha); exists i, e'; rewrite nth_error_set_nth in *; destruct (Nat.eqb_spec j i); try congruence; auto.
Qed.

Lemma thr_same_O : forall (O O' : nat -> Prop) h root rv e c, (forall a, O' a <-> O a) -> thr O h root rv e c -> thr O' h root rv e c.
Proof.
  intros O O' h root rv e c HO H. eapply thr_other; [exact H|lia|auto|]. intros a Ha. apply HO in Ha. split; [eapply th_O; eauto|left; exact Ha].
Qed.

Lemma ok_step : forall y y', sys_ok y -> sstep y y' -> sys_ok y'.
Proof.
  intros y y' Hok H. destruct H as [h es new|h es W t b p root v Hr Hb|h es j e p h' st Hj Hp Hm|h es j e i q q' Hj Hq Hg]; unfold sys_ok in *; cbn [y_heap y_evals] in *.
  - intros k e Hk. destruct (Hok _ _ Hk) as (c & Hs & Ht & Hp). exists c. split; [exact Hs|]. cbn [y_heap y_evals] in *. split.
    + eapply thr_other; [exact Ht|rewrite app_length; lia|intros a Ha _; apply nth_error_app1; exact Ha|]. intros a Ha. apply (th_O _ _ _ _ _ _ Ht) in Ha as Ha'. cbn [y_heap] in Ha'. rewrite app_length. split; [apply (Nat.lt_le_trans _ _ _ Ha'); lia|left; exact Ha].
    + rewrite nth_error_app1; [exact Hp|]. apply nth_error_Some. cbn [y_heap] in Hp. congruence.
  - intros k e Hk. destruct (Nat.eq_dec k (length es)) as [->|Hne].
    + rewrite nth_error_last in Hk. injection Hk as <-. exists (c_init t v). split; [constructor|]. cbn [e_world e_prog e_val e_tick0 e_root e_st e_code y_heap y_evals].
      assert (Hoth : forall a, others (es ++ [mkE W t b p root v (h_init (length h) t root)]) (length es) a -> exists k e, nth_error es k = Some e /\ In a (bufs (e_st e))).
      { intros a (k & e & Hne & Hk & Ha). assert (k < length es)%nat.
        { assert (k < length (es ++ [mkE W t b p root v (h_init (length h) t root)]))%nat by (apply nth_error_Some; congruence). rewrite app_length in *. cbn [length] in *. lia. }
        rewrite nth_error_app1 in Hk by assumption. eauto. }
      assert (Hlt : forall a, others (es ++ [mkE W t b p root v (h_init (length h) t root)]) (length es) a -> (a < length h)%nat).
      { intros a Ha. destruct (Hoth _ Ha) as (k & e & Hk & Ha'). destruct (Hok _ _ Hk) as (c & _ & Ht & _). apply thr_bufs in Ht as [_ Ht]. apply (Ht _ Ha'). }
      set (O := others _ _) in *. set (h' := h ++ [BArr [root]]).
      assert (K : forall a, frozen (mkS h es) a -> free h' (fun a => O a \/ a = length h) a /\ nth_error h' a = nth_error h a).
      { intros a [Ha1 Ha2]. cbn [y_heap y_evals] in *. split; [|apply nth_error_app1; exact Ha1]. split; [unfold h'; rewrite app_length; lia|]. intros [Hb'|Hb']; [|lia].
        apply Ha2. destruct (Hoth _ Hb') as (k & e & Hk & Ha'). apply in_flat_map. exists e. split; [eapply nth_error_In; eauto|exact Ha']. }
      assert (Hc : cells h' (mkSl (length h) 0 1 1) = Some [root]) by (unfold cells, h'; cbn [s_addr s_off s_len s_cap]; rewrite nth_error_last; reflexivity).
      split; [|cbn [y_heap]; unfold h'; rewrite nth_error_app1; [exact Hb|apply nth_error_Some; congruence]].
      assert (Hrt : stands (free h' (bad O (g_m (h_init (length h) t root)))) h' root v).
      { eapply stands_move; [|exact Hr]. intros a Ha. destruct (K _ Ha) as [[K1 K2] K3]. split; [|exact K3]. split; [exact K1|]. intros [Hx|[<-|[]]]; cbn in *; tauto. }
      constructor.
      * eapply stands_move; [|exact Hrt]. intros a Ha. split; [exact Ha|reflexivity].
      * constructor.
      * intros a Ha. apply Hlt in Ha. unfold h'. rewrite app_length. lia.
      * cbn [h_init g_mode c_init c_mode g_m c_m c_chans]. apply sim_intro; cbn [h_init g_m h_out h_dot h_stk h_sp h_pc h_tick h_vals m_init m_out m_dot m_stack m_sp m_pc m_tick]; auto.
        -- unfold out_elems. cbn [h_out]. exists [root]. split; [exact Hc|]. constructor; [exact Hrt|constructor].
        -- apply RpAtom. reflexivity.
        -- exists []. split; [reflexivity|constructor].
        -- unfold mine. cbn. repeat constructor. intros [].
        -- intros a [<-|[]]. cbn [s_addr]. split; [unfold h'; rewrite app_length; cbn; lia|]. intro Ha. apply Hlt in Ha. lia.
        -- intros a Ha. apply Hlt in Ha. unfold h'. rewrite app_length. lia.
        -- reflexivity.
    + assert (Hk' : nth_error es k = Some e).
      { assert (k < length (es ++ [mkE W t b p root v (h_init (length h) t root)]))%nat by (apply nth_error_Some; congruence). rewrite app_length in *. cbn [length] in *.
        rewrite nth_error_app1 in Hk by lia. exact Hk. }
      destruct (Hok _ _ Hk') as (c & Hs & Ht & Hp). exists c. split; [exact Hs|]. cbn [y_heap y_evals] in *. split.
      * eapply thr_other; [exact Ht|rewrite app_length; lia|intros a Ha _; apply nth_error_app1; exact Ha|].
        intros a (i & e' & Hne' & Hi & Ha). rewrite app_length. cbn [length].
        destruct (Nat.lt_ge_cases i (length es)) as [Hlt|Hge].
        -- rewrite nth_error_app1 in Hi by exact Hlt. assert (Ho : others es k a) by (exists i, e'; auto). split; [apply (th_O _ _ _ _ _ _ Ht) in Ho; lia|left; exact Ho].
        -- rewrite nth_error_app2 in Hi by exact Hge. destruct (i - length es)%nat as [|n] eqn:En; [|destruct n; discriminate]. cbn in Hi. injection Hi as <-. cbn in Ha. destruct Ha as [<-|[]]. lia.
      * rewrite nth_error_app1; [exact Hp|]. apply nth_error_Some. congruence.
  - destruct (Hok _ _ Hj) as (c & Hs & Ht & Hcode). cbn [y_heap y_evals] in *. rewrite Hp in Hcode. injection Hcode as ->.
    destruct (main_sim _ _ _ _ _ _ _ _ _ _ Ht Hm) as (c' & Hc' & Ht' & M).
    intros k e2 Hk. rewrite nth_error_set_nth in Hk. destruct (Nat.eqb_spec j k) as [<-|Hjk].
    + rewrite Hj in Hk. injection Hk as <-. exists c'. cbn [with_st e_world e_prog e_val e_tick0 e_root e_st e_code y_heap y_evals]. split; [eapply SdStep; [exact Hs|constructor; exact Hc']|]. split.
      * eapply thr_same_O; [|exact Ht']. intro a. cbn [with_st e_st]. apply others_self. exact Hj.
      * cbn [y_heap with_st e_code e_prog]. destruct M as (M1 & M2 & _). rewrite M2; [exact Hp|apply nth_error_Some; congruence|]. intro Hin. destruct (bufs_arr _ _ _ _ _ _ _ Ht Hin) as (l & Hl). congruence.
    + destruct (Hok _ _ Hk) as (c2 & Hs2 & Ht2 & Hp2). exists c2. split; [exact Hs2|]. cbn [y_heap y_evals] in *. destruct M as (M1 & M2 & M3). split.
      * eapply thr_other; [exact Ht2|exact M1| |].
        -- intros a Ha Hn. apply M2; [exact Ha|]. intro Hin. apply Hn. exists j, e. auto.
        -- intros a Ha. destruct (others_upd _ _ _ _ _ _ Hj Ha) as [Ho|[_ Hb]].
           ++ split; [apply (th_O _ _ _ _ _ _ Ht2) in Ho; lia|left; exact Ho].
           ++ apply thr_bufs in Ht' as [_ Ht']. split; [apply (Ht' _ Hb)|]. destruct (M3 _ Hb) as [Hx|Hx]; [left; exists j, e; auto|right; lia].
      * rewrite M2; [exact Hp2|apply nth_error_Some; congruence|]. intro Hin. destruct (bufs_arr _ _ _ _ _ _ _ Ht Hin) as (l & Hl). congruence.
  - destruct (Hok _ _ Hj) as (c & Hs & Ht & Hp). cbn [y_heap y_evals] in *. pose proof (th_prods _ _ _ _ _ _ Ht) as Hps.
    destruct (Forall2_nth _ _ _ _ _ _ _ Hps Hq) as (qa & Hqa & Hsp). destruct (step_sim _ _ _ _ Hg _ _ Hsp) as (qa' & Hst & Hsp').
    intros k e2 Hk. rewrite nth_error_set_nth in Hk. destruct (Nat.eqb_spec j k) as [<-|Hjk].
    + rewrite Hj in Hk. injection Hk as <-. exists (mkC (c_m c) (c_chans c) (c_mode c) (set_nth i qa' (c_prods c))).
      cbn [with_st e_world e_prog e_val e_tick0 e_root e_st e_code y_heap y_evals]. split; [eapply SdStep; [exact Hs|eapply CProd; eauto]|]. split; [|exact Hp].
      eapply thr_same_O; [intro a; cbn [with_st e_st]; apply others_self; exact Hj|].
      assert (Eb : forall O a, held O (mkT (g_m (e_st e)) (g_mode (e_st e)) (set_nth i q' (g_prods (e_st e)))) a <-> held O (e_st e) a) by (intros; reflexivity).
      destruct Ht as [T1 T2 T3 T4]. constructor; cbn [g_prods c_prods g_mode c_mode g_m c_m c_chans]; auto.
      apply Forall2_set_nth; [exact Hps|exact Hsp'].
    + destruct (Hok _ _ Hk) as (c2 & Hs2 & Ht2 & Hp2). exists c2. split; [exact Hs2|]. split; [|exact Hp2]. cbn [y_heap y_evals] in *.
      eapply thr_same_O; [|exact Ht2]. intro a. split.
      * intro Ha. destruct (others_upd _ _ _ _ _ _ Hj Ha) as [Ho|[_ Hb]]; [exact Ho|]. exists j, e. auto.
      * intros (n & e' & Hne & Hn & Ha). destruct (Nat.eq_dec n j) as [->|Hnj].
        -- rewrite Hj in Hn. injection Hn as <-. exists j. eexists. split; [auto|]. split; [rewrite nth_error_set_nth, Nat.eqb_refl, Hj; reflexivity|exact Ha].
        -- exists n, e'. split; [auto|]. split; [|exact Ha]. rewrite nth_error_set_nth. destruct (Nat.eqb_spec j n); [congruence|exact Hn].
Qed.

Lemma ok_reachable : forall y, reachable y -> sys_ok y.
Proof.
  intros y H. induction H as [|y y' H IH Hs]; [|eapply ok_step; eauto]. intros j e Hj. destruct j; discriminate.
Qed.

Lemma reach_later : forall y y', later y y' -> reachable y -> reachable y'.
Proof. intros y y' H. induction H as [|y y1 y2 Hs H IH]; intro Hr; [exact Hr|]. apply IH. eapply YStep; eauto. Qed.
