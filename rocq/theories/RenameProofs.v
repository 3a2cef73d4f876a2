(** Members can be given other names. *)
From Coq Require Import Permutation.
From Verif Require Import Base Syntax SpecSyntax Value Machine Parser Api SpecDoc SpecSelect SpecRun SpecText SpecSem SpecLaws
  SpecOnce SpecFind SpecRename FindProofs.
Local Open Scope Z_scope.

Section rename.
Variable f : bytes -> bytes.
Hypothesis inj : forall a b, f a = f b -> a = b.

Lemma renamed_member : forall s m, member (f s) (map (fun kv => (f (fst kv), renamed f (snd kv))) m) = map (renamed f) (member s m).
Proof.
  intros s m. unfold member. induction m as [|[k x] m IH]; [reflexivity|]. cbn [map find fst snd].
  destruct (list_eq_dec Z.eq_dec (f k) (f s)) as [E|E], (list_eq_dec Z.eq_dec k s) as [E'|E']; try reflexivity.
  - apply inj in E. contradiction.
  - subst. contradiction.
  - exact IH.
Qed.

Lemma renamed_arg : forall back v a, (forall n, a = PInt n -> f (decimal n) = decimal n) -> literal_key a ->
  find_arg back (renamed f v) (rename_arg f a) = map (renamed f) (find_arg back v a).
Proof.
  intros back v a H Ha. destruct a as [n|s|s| |]; try destruct Ha; destruct v; try reflexivity; cbn [rename_arg renamed find_arg]; try apply renamed_member.
  - rewrite map_length. match goal with |- (if ?b then _ else _) = _ => destruct b end; [reflexivity|].
    rewrite nth_error_map. match goal with |- context [nth_error ?l ?i] => destruct (nth_error l i) end; reflexivity.
  - rewrite <- (H n eq_refl) at 1. apply renamed_member.
Qed.

Lemma flat_map_map : forall (A B : Type) (g : A -> B) (h : B -> list val) (k : A -> list val) l,
  (forall x, In x l -> h (g x) = map (renamed f) (k x)) -> flat_map h (map g l) = map (renamed f) (flat_map k l).
Proof.
  intros A B g h k l H. induction l as [|x l IH]; [reflexivity|]. cbn [map flat_map]. rewrite map_app. f_equal; [apply H; left; reflexivity|].
  apply IH. intros y Hy. apply H. right. exact Hy.
Qed.

Lemma renamed_containers : forall v, containers (renamed f v) = map (renamed f) (containers v).
Proof.
  fix go 1. intros [ | | | | | | |l|m| | | | ]; try reflexivity; cbn [renamed containers map]; f_equal.
  - induction l as [|x l IH]; [reflexivity|]. cbn [map flat_map]. rewrite map_app. f_equal; [apply go|exact IH].
  - induction m as [|[k x] m IH]; [reflexivity|]. cbn [map flat_map fst snd]. rewrite map_app. f_equal; [apply go|exact IH].
Qed.

Lemma renamed_step : forall s v, (forall n, In (PInt n) (st_args s) -> f (decimal n) = decimal n) -> Forall literal_key (st_args s) ->
  find_step (rename_step f s) (renamed f v) = map (renamed f) (find_step s v).
Proof.
  intros [o args] v H Ha. cbn [st_args] in *.
  assert (W : offspring (renamed f v) = map (renamed f) (offspring v)).
  { destruct v; try reflexivity. cbn [renamed offspring]. rewrite !map_map. reflexivity. }
  assert (K : forall back, flat_map (find_arg back (renamed f v)) (map (rename_arg f) args) = map (renamed f) (flat_map (find_arg back v) args)).
  { intro back. apply flat_map_map. intros a Hin. apply renamed_arg; [intros n ->; apply H; exact Hin|]. rewrite Forall_forall in Ha. auto. }
  unfold find_step, rename_step. cbn [st_op st_args]. destruct o; auto.
Qed.

Lemma renamed_path : forall ss v, (forall s n, In s ss -> In (PInt n) (st_args s) -> f (decimal n) = decimal n) ->
  Forall (fun s => Forall literal_key (st_args s)) ss ->
  find_path (map (rename_step f) ss) (renamed f v) = map (renamed f) (find_path ss v).
Proof.
  induction ss as [|s ss IH]; intros v H Hl; [reflexivity|]. inversion Hl as [|? ? H1 H2]; subst. cbn [map find_path].
  change (st_op (rename_step f s)) with (st_op s).
  assert (E : (if is_nest (st_op s) then containers (renamed f v) else [renamed f v]) = map (renamed f) (if is_nest (st_op s) then containers v else [v])).
  { destruct (is_nest (st_op s)); [apply renamed_containers|reflexivity]. }
  rewrite E. rewrite (flat_map_map _ _ (renamed f) (find_step (rename_step f s)) (find_step s)).
  - apply flat_map_map. intros x _. apply IH; [|exact H2]. intros s' n Hs. apply H. right. exact Hs.
  - intros x _. apply renamed_step; [|exact H1]. intros n. apply H. left. reflexivity.
Qed.
End rename.

Lemma rename_literal : forall f ss, Forall (fun s => Forall literal_key (st_args s)) ss ->
  Forall (fun s => Forall literal_key (st_args s)) (map (rename_step f) ss).
Proof.
  intros f ss H. apply Forall_map. eapply Forall_impl; [|exact H]. intros s Hs. cbn. apply Forall_map. eapply Forall_impl; [|exact Hs].
  intros a Ha. destruct a; exact Ha.
Qed.

Lemma renamed_lone : forall f v, lone_members v -> lone_members (renamed f v).
Proof.
  intros f v L.
  assert (K : forall w x, within w x -> forall v, x = renamed f v -> exists w', w = renamed f w' /\ within w' v).
  { intros w x H. induction H as [x|w l e He H IH|w m k e He H IH]; intros u E.
    - exists u. split; [exact E|constructor].
    - destruct u; try discriminate. cbn in E. injection E as ->. apply in_map_iff in He as (y & <- & Hy).
      destruct (IH y eq_refl) as (w' & -> & Hw). exists w'. split; [reflexivity|]. eapply WElem; eauto.
    - destruct u; try discriminate. cbn in E. injection E as ->. apply in_map_iff in He as ([k' y] & E & Hy). injection E as <- <-.
      destruct (IH y eq_refl) as (w' & -> & Hw). exists w'. split; [reflexivity|]. eapply WMember; eauto. }
  intros m H. destruct (K _ _ H v eq_refl) as (w' & E & Hw). destruct w'; try discriminate. cbn in E. injection E as ->. rewrite map_length. eapply L; eauto.
Qed.

Lemma text_renamed : forall TX s ss jp s' jp' W W' t t' f root r r', accepted TX s ss jp -> fits jp ->
  accepted TX s' (map (rename_step f) ss) jp' -> fits jp' -> orders_ok W -> orders_ok W' -> doc root -> doc (renamed f root) ->
  Forall (fun st => Forall literal_key (st_args st)) ss -> names_anew f ss ->
  JP_Eval W t jp root r -> JP_Eval W' t' jp' (renamed f root) r' ->
  exists l l', r = OK l /\ r' = OK l' /\ Permutation (map (renamed f) l) l' /\ (lone_members root -> l' = map (renamed f) l).
Proof.
  intros TX s ss jp s' jp' W W' t t' f root r r' Ha Hf Ha' Hf' HW HW' Hd Hd' Hl [Hi Hn] H H'.
  destruct (text_found _ _ _ _ _ _ _ _ Ha Hf HW Hd Hl H) as (l & -> & P & E).
  destruct (text_found _ _ _ _ _ _ _ _ Ha' Hf' HW' Hd' (rename_literal f _ Hl) H') as (l' & -> & P' & E').
  rewrite renamed_path in P', E' by assumption. exists l, l'. split; [reflexivity|]. split; [reflexivity|]. split.
  - eapply Permutation_trans; [apply Permutation_map; exact P|apply Permutation_sym; exact P'].
  - intro L. rewrite (E L). apply E'. apply renamed_lone. exact L.
Qed.
