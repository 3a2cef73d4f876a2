(** A change where nothing is selected has no effect, whatever the steps. *)
From Coq Require Import Permutation.
From Verif Require Import Base Syntax SpecSyntax Value Machine Parser Api SpecDoc DocProofs SpecSelect SpecRun SpecText SpecSem SpecLaws
  SpecOnce SpecReach SpecEdit SpecFind FindProofs EditProofs.
Local Open Scope Z_scope.

(** ** What is found is reached *)
Lemma member_found : forall s m x, In x (member s m) -> In (s, x) m.
Proof.
  intros s m x H. unfold member in H. destruct (find (fun kv => if list_eq_dec Z.eq_dec (fst kv) s then true else false) m) as [[k y]|] eqn:E; [|destruct H]. apply find_some in E as [E1 E2].
  cbn [fst] in E2. destruct (list_eq_dec Z.eq_dec k s) as [->|]; [|discriminate]. destruct H as [<-|[]]. exact E1.
Qed.
Lemma index_key : forall (back : bool) n len i, 0 <= (if back && (n <? 0) then n + len else n) -> i = (if back && (n <? 0) then n + len else n) ->
  i = n \/ (back = true /\ n < 0 /\ i = n + len).
Proof. intros back n len i H ->. destruct back; cbn in *; [|lia]. destruct (Z.ltb_spec n 0); lia. Qed.
Lemma arg_key_found : forall back v a y, In y (find_arg back v a) -> exists k, arg_key back v a k /\ value_at v [k] y.
Proof.
  intros back v a y H. destruct a as [n|s|s| |]; destruct v as [| | | | | | |l|m| | | |]; try destruct H; cbn [find_arg arg_key] in *.
  - set (i := if back && (n <? 0) then n + Z.of_nat (length l) else n) in H. destruct (Z.ltb_spec i 0) as [L|L]; [destruct H|].
    destruct (nth_error l (Z.to_nat i)) as [x|] eqn:E; [|destruct H]. destruct H as [<-|[]]. exists (AtIndex (Z.to_nat i)). split.
    + right. exists l, (Z.to_nat i). split; [reflexivity|]. split; [reflexivity|]. rewrite Z2Nat.id by exact L. apply index_key; [exact L|reflexivity].
    + econstructor; [exact E|constructor].
  - exists (AtName (decimal n)). split; [left; reflexivity|]. econstructor; [apply member_found; exact H|constructor].
  - exists (AtName s). split; [reflexivity|]. econstructor; [apply member_found; exact H|constructor].
  - exists (AtName s). split; [reflexivity|]. econstructor; [apply member_found; exact H|constructor].
Qed.
Lemma offspring_at : forall v y, In y (offspring v) -> exists k, value_at v [k] y.
Proof.
  intros v y H. destruct v as [| | | | | | |l|m| | | |]; try destruct H; cbn [offspring] in H.
  - apply In_nth_error in H as (i & Hi). exists (AtIndex i). econstructor; [exact Hi|constructor].
  - apply in_map_iff in H as ([k x] & E & H). cbn in E. subst x. exists (AtName k). econstructor; [exact H|constructor].
Qed.
Lemma step_key_found : forall s v y, In y (find_step s v) -> exists k, step_key s v k /\ value_at v [k] y.
Proof.
  intros s v y H. unfold find_step, step_key in *.
  destruct (st_op s); try (apply in_flat_map in H as (a & Ha & H); apply arg_key_found in H as (k & K1 & K2); exists k; eauto; fail);
    apply offspring_at in H as (k & Hk); eauto.
Qed.
Lemma container_at : forall v d, In d (containers v) -> exists q, value_at v q d.
Proof.
  fix go 1. intros v. destruct v as [| | | | | | |l|m| | | |]; try (intros d []; fail).
  - assert (A : forall x, In x l -> forall d, In d (containers x) -> exists q, value_at x q d).
    { clear - go. induction l as [|y l IH]; [intros x []|]. intros x [<-|Hx]; [exact (go y)|exact (IH x Hx)]. }
    clear go. intros d [<-|H]; [exists []; constructor|].
    apply in_flat_map in H as (x & Hx & H). destruct (A _ Hx _ H) as (q & K). apply In_nth_error in Hx as (i & Hi).
    exists (AtIndex i :: q). econstructor; eauto.
  - assert (A : forall kv, In kv m -> forall d, In d (containers (snd kv)) -> exists q, value_at (snd kv) q d).
    { clear - go. induction m as [|[k y] m IH]; [intros kv []|]. intros kv [<-|Hx]; [exact (go y)|exact (IH kv Hx)]. }
    clear go. intros d [<-|H]; [exists []; constructor|].
    apply in_flat_map in H as ([k x] & Hx & H). destruct (A _ Hx _ H) as (q & K).
    exists (AtName k :: q). econstructor; eauto.
Qed.
Lemma found_reached : forall ss v x, In x (find_path ss v) -> exists q, reaches v ss q x.
Proof.
  intros ss. induction ss as [|s ss IH]; intros v x H; cbn [find_path] in H.
  - destruct H as [<-|[]]. exists []. constructor.
  - apply in_flat_map in H as (y & Hy & H). apply IH in H as (p & Hp). apply in_flat_map in Hy as (d & Hd & Hy).
    apply step_key_found in Hy as (k & K1 & K2). destruct (is_nest (st_op s)) eqn:N.
    + apply container_at in Hd as (q & Hq). exists (q ++ k :: p). eapply RcNest; eauto.
    + destruct Hd as [<-|[]]. exists (k :: p). eapply RcStep; eauto.
Qed.


(** ** Steps before and after the change *)
Definition pair_of (v v' : val) (k0 : key) (p0 : list key) (P : Prop) (y y' : val) : Prop :=
  y = y' \/ (edits y p0 y' /\ value_at v [k0] y /\ value_at v' [k0] y' /\ P).
Lemma pairs_same : forall v v' k0 p0 P l, Forall2 (pair_of v v' k0 p0 P) l l.
Proof. intros v v' k0 p0 P l. induction l; constructor; [left; reflexivity|assumption]. Qed.

Lemma pairs_member : forall (Q : val -> val -> Prop) s m1 m2 k e e', (forall x, Q x x) -> (k = s -> Q e e') ->
  Forall2 Q (member s (m1 ++ (k, e) :: m2)) (member s (m1 ++ (k, e') :: m2)).
Proof.
  intros Q s m1 m2 k e e' R H. unfold member. induction m1 as [|[k1 e1] m1 IH]; cbn [app find fst].
  - destruct (list_eq_dec Z.eq_dec k s) as [E|E]; [constructor; [apply H; exact E|constructor]|].
    match goal with |- Forall2 _ (match ?f with _ => _ end) _ => destruct f end; repeat constructor; apply R.
  - destruct (list_eq_dec Z.eq_dec k1 s) as [E|E]; [repeat constructor; apply R|exact IH].
Qed.
Lemma pairs_nth : forall (Q : val -> val -> Prop) l1 l2 e e' i, (forall x, Q x x) -> (i = length l1 -> Q e e') ->
  Forall2 Q (match nth_error (l1 ++ e :: l2) i with Some x => [x] | None => [] end) (match nth_error (l1 ++ e' :: l2) i with Some x => [x] | None => [] end).
Proof.
  intros Q l1 l2 e e' i R. revert i. induction l1 as [|x l1 IH]; intros [|i] H; cbn.
  - constructor; [apply H; reflexivity|constructor].
  - destruct (nth_error l2 i); repeat constructor; apply R.
  - repeat constructor; apply R.
  - apply IH. intros ->. apply H. reflexivity.
Qed.
Lemma at_index : forall l1 l2 e, value_at (VArr (l1 ++ e :: l2)) [AtIndex (length l1)] e.
Proof. intros. econstructor; [|constructor]. rewrite nth_error_app2 by lia. rewrite Nat.sub_diag. reflexivity. Qed.
Lemma at_name : forall m1 m2 k e, value_at (VObj (m1 ++ (k, e) :: m2)) [AtName k] e.
Proof. intros. econstructor; [|constructor]. apply in_or_app. right. left. reflexivity. Qed.

Lemma pairs_arg : forall v v' k0 p0 back a, edits v (k0 :: p0) v' ->
  Forall2 (pair_of v v' k0 p0 (arg_key back v a k0)) (find_arg back v a) (find_arg back v' a).
Proof.
  intros v v' k0 p0 back a H. inversion H as [|l1 l2 e e' p He|m1 m2 k e e' p He]; subst; destruct a as [n|s|s| |]; cbn [find_arg]; try (constructor; fail).
  - replace (length (l1 ++ e' :: l2)) with (length (l1 ++ e :: l2)) by (rewrite !app_length; reflexivity). cbv zeta.
    set (i := if back && (n <? 0) then n + Z.of_nat (length (l1 ++ e :: l2)) else n). destruct (Z.ltb_spec i 0) as [L|L]; [constructor|].
    apply pairs_nth; [intros; left; reflexivity|]. intros Ei. right. split; [exact He|]. split; [apply at_index|]. split; [apply at_index|].
    right. exists (l1 ++ e :: l2), (length l1). split; [reflexivity|]. split; [reflexivity|]. rewrite <- Ei, Z2Nat.id by exact L. apply index_key; [exact L|reflexivity].
  - apply pairs_member; [intros; left; reflexivity|]. intros ->. right. split; [exact He|]. split; [apply at_name|]. split; [apply at_name|]. left. reflexivity.
  - apply pairs_member; [intros; left; reflexivity|]. intros ->. right. split; [exact He|]. split; [apply at_name|]. split; [apply at_name|]. reflexivity.
  - apply pairs_member; [intros; left; reflexivity|]. intros ->. right. split; [exact He|]. split; [apply at_name|]. split; [apply at_name|]. reflexivity.
Qed.
Lemma pairs_offspring : forall v v' k0 p0, edits v (k0 :: p0) v' -> Forall2 (pair_of v v' k0 p0 True) (offspring v) (offspring v').
Proof.
  intros v v' k0 p0 H. inversion H as [|l1 l2 e e' p He|m1 m2 k e e' p He]; subst; cbn [offspring].
  - apply Forall2_app; [apply pairs_same|]. constructor; [|apply pairs_same].
    right. split; [exact He|]. split; [apply at_index|]. split; [apply at_index|exact I].
  - rewrite !map_app. apply Forall2_app; [apply pairs_same|]. constructor; [|apply pairs_same].
    right. split; [exact He|]. split; [apply at_name|]. split; [apply at_name|exact I].
Qed.
Lemma pairs_mono : forall v v' k0 p0 (P P' : Prop) l l', (P -> P') -> Forall2 (pair_of v v' k0 p0 P) l l' -> Forall2 (pair_of v v' k0 p0 P') l l'.
Proof. intros v v' k0 p0 P P' l l' I H. induction H as [|y y' l l' [E|(A & B & C & D)] F IH]; constructor; auto; [left; exact E|right; auto]. Qed.
Lemma pairs_step : forall v v' k0 p0 s, edits v (k0 :: p0) v' -> Forall2 (pair_of v v' k0 p0 (step_key s v k0)) (find_step s v) (find_step s v').
Proof.
  intros v v' k0 p0 s H. unfold find_step, step_key.
  destruct (st_op s); try (apply pairs_offspring; exact H);
    (induction (st_args s) as [|a args IH]; cbn [flat_map]; [constructor|];
     apply Forall2_app; [eapply pairs_mono; [|apply pairs_arg; exact H]; intros K; exists a; split; [left; reflexivity|exact K]
       |eapply pairs_mono; [|exact IH]; intros (a' & Ha & K); exists a'; split; [right; exact Ha|exact K]]).
Qed.

(** ** The change avoids what is selected *)
Definition off (ss : path) (p : list key) (v : val) : Prop := forall q x, reaches v ss q x -> elsewhere p q.
Lemma elsewhere_root : forall q, ~ elsewhere [] q.
Proof. intros [|k r] (A & B & _); [apply A; reflexivity|]. apply B. exists k, r. reflexivity. Qed.
Lemma elsewhere_end : forall p, ~ elsewhere p [].
Proof. intros [|k r] (A & _ & B); [apply A; reflexivity|]. apply B. exists k, r. reflexivity. Qed.
Lemma elsewhere_in : forall k p q, elsewhere (k :: p) (k :: q) -> elsewhere p q.
Proof.
  intros k p q (A & B & C). split; [intros ->; apply A; reflexivity|].
  split; intros (k' & r & E); [apply B|apply C]; exists k', r; cbn; rewrite E; reflexivity.
Qed.
Lemma off_dead : forall ss v, off ss [] v -> find_path ss v = [].
Proof.
  intros ss v H. destruct (find_path ss v) as [|x l] eqn:E; [reflexivity|]. exfalso.
  destruct (found_reached ss v x) as (q & Hq); [rewrite E; left; reflexivity|]. exact (elsewhere_root q (H _ _ Hq)).
Qed.
Lemma off_step : forall s ss v k p y, step_key s v k -> value_at v [k] y -> off (s :: ss) (k :: p) v -> off ss p y.
Proof.
  intros s ss v k p y Hk Hy H q x Hq. apply (elsewhere_in k). apply (H (k :: q) x). destruct (is_nest (st_op s)) eqn:N.
  - apply (RcNest v s ss [] v k y q x); auto. constructor.
  - eapply RcStep; eauto.
Qed.
Lemma value_under : forall v k e q d, value_at v [k] e -> value_at e q d -> value_at v (k :: q) d.
Proof. intros v k e q d H K. inversion H as [|? ? ? ? ? ? H1|? ? ? ? ? ? H1]; subst; inversion H1; subst; econstructor; eauto. Qed.
Lemma off_under : forall s ss v k p e, is_nest (st_op s) = true -> value_at v [k] e -> off (s :: ss) (k :: p) v -> off (s :: ss) p e.
Proof.
  intros s ss v k p e N He H q x Hq. apply (elsewhere_in k). apply (H (k :: q) x).
  inversion Hq as [|? ? ? ? ? ? ? C|? ? ? q0 d k0 y p0 ? _ Hd Hk Hy Hr]; subst; [congruence|].
  apply (RcNest v s ss (k :: q0) d k0 y p0 x); auto. eapply value_under; eauto.
Qed.
Lemma flat_pairs : forall (f : val -> list val) l l', Forall2 (fun y y' => f y = f y') l l' -> flat_map f l = flat_map f l'.
Proof. intros f l l' H. induction H as [|y y' l l' E F IH]; cbn; congruence. Qed.

Lemma find_edit : forall ss v p v', edits v p v' -> off ss p v -> off ss p v' -> find_path ss v = find_path ss v'.
Proof.
  intros ss. induction ss as [|s ss IH]; intros v p v' He Ho Ho'.
  - exfalso. apply (elsewhere_end p). apply (Ho [] v). constructor.
  - assert (S : forall v k p v', edits v (k :: p) v' -> off (s :: ss) (k :: p) v -> off (s :: ss) (k :: p) v' ->
      flat_map (find_path ss) (find_step s v) = flat_map (find_path ss) (find_step s v')).
    { clear - IH. intros v k p v' He Ho Ho'. apply flat_pairs. pose proof (pairs_step v v' k p s He) as F.
      induction F as [|y y' l l' Hy F IHF]; constructor; [|exact IHF]. destruct Hy as [->|(A & B & C & D)]; [reflexivity|].
      apply (IH y p y' A); [exact (off_step s ss v k p y D B Ho)|].
      exact (off_step s ss v' k p y' (same_keys s v v' k k p He D) C Ho'). }
    cbn [find_path]. destruct (is_nest (st_op s)) eqn:N.
    + rewrite !flat_flat. revert Ho Ho'. induction He as [v v'|l1 l2 e e' p He IHe|m1 m2 k e e' p He IHe]; intros Ho Ho'.
      * pose proof (off_dead _ _ Ho) as A. pose proof (off_dead _ _ Ho') as B. cbn [find_path] in A, B. rewrite N in A, B. rewrite flat_flat in A, B. congruence.
      * cbn [containers flat_map]. f_equal; [apply (S _ _ _ _ (EdIndex l1 l2 e e' p He) Ho Ho')|].
        rewrite !flat_map_app. cbn [flat_map]. rewrite !flat_map_app. f_equal. f_equal.
        apply IHe; (eapply off_under; [exact N|apply at_index|eassumption]).
      * cbn [containers flat_map]. f_equal; [apply (S _ _ _ _ (EdName m1 m2 k e e' p He) Ho Ho')|].
        rewrite !flat_map_app. cbn [flat_map snd]. rewrite !flat_map_app. f_equal. f_equal.
        apply IHe; (eapply off_under; [exact N|apply at_name|eassumption]).
    + cbn [flat_map]. rewrite !app_nil_r. destruct p as [|k p].
      * pose proof (off_dead _ _ Ho) as A. pose proof (off_dead _ _ Ho') as B. cbn [find_path] in A, B. rewrite N in A, B. cbn [flat_map] in A, B.
        rewrite app_nil_r in A, B. congruence.
      * eapply S; eauto.
Qed.

Lemma text_unaffected : forall TX s ss jp W W' t t' p root root' r r', accepted TX s ss jp -> fits jp -> orders_ok W -> orders_ok W' ->
  doc root -> doc root' -> Forall (fun st => Forall literal_key (st_args st)) ss -> edits root p root' ->
  (forall q x, reaches root ss q x \/ reaches root' ss q x -> elsewhere p q) ->
  JP_Eval W t jp root r -> JP_Eval W' t' jp root' r' ->
  exists l l', r = OK l /\ r' = OK l' /\ Permutation l l' /\ (lone_members root -> lone_members root' -> l = l').
Proof.
  intros TX s ss jp W W' t t' p root root' r r' Ha Hf HW HW' Hd Hd' Hl He Ho H H'.
  destruct (text_found _ _ _ _ _ _ _ _ Ha Hf HW Hd Hl H) as (l & -> & P & E).
  destruct (text_found _ _ _ _ _ _ _ _ Ha Hf HW' Hd' Hl H') as (l' & -> & P' & E').
  exists l, l'. split; [reflexivity|]. split; [reflexivity|].
  assert (F : find_path ss root = find_path ss root').
  { apply (find_edit ss root p root' He); intros q x Hq; eapply Ho; eauto. }
  split.
  - rewrite P, F. symmetry. exact P'.
  - intros L L'. rewrite (E L), (E' L'). exact F.
Qed.
