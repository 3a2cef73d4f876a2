(** Facts about documents and induction over values. *)
From Verif Require Import Syntax Value SpecDoc.
Local Open Scope Z_scope.

Section val_ind.
Variable P : val -> Prop.
Hypothesis Hnil : P VNil.
Hypothesis Hbool : forall b, P (VBool b).
Hypothesis Hint : forall z, P (VInt z).
Hypothesis Hint64 : forall z, P (VInt64 z).
Hypothesis Hfloat : forall f, P (VFloat f).
Hypothesis Hstr : forall s, P (VStr s).
Hypothesis Hnum : forall s, P (VNum s).
Hypothesis Harr : forall l, Forall P l -> P (VArr l).
Hypothesis Hobj : forall m, Forall (fun kv => P (snd kv)) m -> P (VObj m).
Hypothesis Hname : forall s, P (VName s).
Hypothesis Hslice : forall s, P (VSlice s).
Hypothesis Hre : forall s, P (VRegexp s).
Hypothesis Herr : forall k, P (VErr k).

Fixpoint val_tree_ind (v : val) : P v :=
  match v with
  | VNil => Hnil
  | VBool b => Hbool b
  | VInt z => Hint z
  | VInt64 z => Hint64 z
  | VFloat f => Hfloat f
  | VStr s => Hstr s
  | VNum s => Hnum s
  | VArr l =>
    Harr l ((fix go (l : list val) : Forall P l :=
               match l with
               | [] => Forall_nil P
               | x :: l' => Forall_cons x (val_tree_ind x) (go l')
               end) l)
  | VObj m =>
    Hobj m ((fix go (m : list (bytes * val)) : Forall (fun kv => P (snd kv)) m :=
               match m with
               | [] => Forall_nil _
               | kv :: m' => Forall_cons kv (val_tree_ind (snd kv)) (go m')
               end) m)
  | VName s => Hname s
  | VSlice s => Hslice s
  | VRegexp s => Hre s
  | VErr k => Herr k
  end.
End val_ind.

Lemma within_trans : forall x y z, within x y -> within y z -> within x z.
Proof.
  intros x y z Hxy Hyz. induction Hyz; auto.
  - econstructor; eauto.
  - econstructor 3; eauto.
Qed.

Lemma within_child : forall c v, In c (children v) -> within c v.
Proof.
  intros c v H. destruct v; simpl in H; try contradiction.
  - econstructor; eauto. constructor.
  - apply in_map_iff in H as ([k e] & <- & H). econstructor 3; eauto. constructor.
Qed.

Lemma doc_within : forall x v, doc v -> within x v -> doc x.
Proof. intros x v H Hx y Hy. apply H. eapply within_trans; eauto. Qed.

Lemma doc_child : forall c v, doc v -> In c (children v) -> doc c.
Proof. intros. eapply doc_within; eauto. apply within_child; auto. Qed.

Lemma doc_node : forall v, doc v -> json_node v.
Proof. intros v H. apply H. constructor. Qed.

Lemma doc_nil : doc VNil.
Proof. intros x H. inversion H; subst. exact I. Qed.

Lemma arrays_within_sub : forall n x v, arrays_within n v -> within x v -> arrays_within n x.
Proof. intros n x v H Hx l Hl. apply H. eapply within_trans; eauto. Qed.
