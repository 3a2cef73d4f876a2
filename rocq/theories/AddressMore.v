(** An index read as a name; names of an example. *)
From Verif Require Import Base Syntax SpecGrammar SpecPrint Value Parser Api Machine SpecDoc SpecSelect SpecRun SpecText
  SpecAddress AddressProofs Examples.
Local Open Scope Z_scope.

(** a test for examples *)
Fixpoint namesb (v : val) : bool :=
  match v with
  | VArr l => (fix go l := match l with [] => true | x :: l => namesb x && go l end) l
  | VObj m => (fix go m := match m with [] => true | (k, x) :: m => bytesb k && namesb x && go m end) m
  | _ => true
  end.
Lemma namesb_arr : forall l x, namesb (VArr l) = true -> In x l -> namesb x = true.
Proof.
  induction l as [|y l IH]; intros x H Hx; [destruct Hx|]. cbn in H. apply andb_true_iff in H as [H1 H2].
  destruct Hx as [<-|Hx]; auto.
Qed.
Lemma namesb_obj : forall m k x, namesb (VObj m) = true -> In (k, x) m -> bytesb k = true /\ namesb x = true.
Proof.
  induction m as [|[s y] m IH]; intros k x H Hx; [destruct Hx|]. cbn in H.
  apply andb_true_iff in H as [H1 H2]. apply andb_true_iff in H1 as [H0 H1].
  destruct Hx as [E|Hx]; [injection E as <- <-; auto|eauto].
Qed.
Lemma names_ok : forall root, namesb root = true -> byte_names root.
Proof.
  intros root H m k x Hw Hx. remember (VObj m) as o eqn:Eo.
  induction Hw as [v|o e l He Hw IH|o s e m' He Hw IH]; subst.
  - apply bytesb_ok. eapply namesb_obj; eauto.
  - apply IH; auto. eapply namesb_arr; eauto.
  - apply IH; auto. eapply namesb_obj; eauto.
Qed.

Lemma x_names : byte_names (VObj [(b_of "a'b", VArr [VInt64 1; VObj [([], VInt64 2)]])]).
Proof. apply names_ok. reflexivity. Qed.

(** $[0] on {"0": true} *)
Lemma index_names : exists p root x, Forall nameable p /\ doc root /\ byte_names root /\
  (forall y, ~ value_at root p y) /\
  forall TX, literal_floats (o_parse_float TX) ->
  exists jp, JP_Compile TX (address p) = OK jp /\ forall W t, orders_ok W -> JP_Eval W t jp root (OK [x]).
Proof.
  exists [AtIndex 0], (VObj [(b_of "0", VBool true)]), (VBool true).
  assert (Hp : Forall nameable [AtIndex 0]) by (constructor; [discriminate|constructor]).
  assert (Hd : doc (VObj [(b_of "0", VBool true)])) by (apply docb_doc; reflexivity).
  split; [exact Hp|]. split; [exact Hd|]. split; [apply names_ok; reflexivity|].
  split; [intros y H; inversion H|].
  intros TX Hl. destruct (address_exact TX [AtIndex 0] Hp Hl) as (jp & Hj & H); [discriminate|].
  exists jp. split; [exact Hj|]. intros W t HW. apply H; auto. left. exists (VBool true), [AtName (b_of "0")].
  split; [reflexivity|]. split; [constructor; [right; exists 0%nat; split; reflexivity|constructor]|].
  eapply VaMember; [left; reflexivity|constructor].
Qed.
