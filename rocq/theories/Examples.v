(** Concrete external functions, documents and paths for the examples beside the
    theorems. *)
From Coq Require Import Permutation.
From Verif Require Import Syntax Value Machine CoderProofs SpecSyntax SpecDoc SpecRun SpecGrammar Api SpecText.
Local Open Scope Z_scope.

(** 1.5 is the only floating-point literal *)
Definition x_half : f64 := S754_finite false 6755399441055744 (-52).
Definition x_text : textoracles :=
  mkText (fun t => if beqb t (b_of "1.5") then Some x_half else None) (fun _ => true).

(** maps are visited in the order of the association list; a pattern matches the strings
    equal to it *)
Definition x_world : world :=
  mkWorld x_text beqb (fun _ s => [s]) (fun _ => b_of "1.5") (fun _ => b_of "[]") (fun _ => 0)
    (fun _ n => seq 0 n).

(** maps are visited backwards *)
Definition x_world_rev : world :=
  mkWorld x_text beqb (fun _ s => [s]) (fun _ => b_of "1.5") (fun _ => b_of "[]") (fun _ => 0)
    (fun _ n => rev (seq 0 n)).

Lemma x_world_ok : orders_ok x_world.
Proof. intros t n. apply Permutation_refl. Qed.
Lemma x_world_rev_ok : orders_ok x_world_rev.
Proof. intros t n. symmetry. apply Permutation_rev. Qed.

(** {"a": [1, 2, {"b": "x"}], "c": {"b": null}, "d": 1.5} *)
Definition x_doc : val :=
  VObj [(b_of "a", VArr [VInt64 1; VInt64 2; VObj [(b_of "b", VStr (b_of "x"))]]);
        (b_of "c", VObj [(b_of "b", VNil)]);
        (b_of "d", VFloat x_half)].

(** a decision procedure for small documents *)
Fixpoint nodupb (l : list bytes) : bool :=
  match l with [] => true | k :: r => negb (existsb (beqb k) r) && nodupb r end.
Fixpoint docb (v : val) : bool :=
  match v with
  | VNil | VBool _ | VStr _ | VNum _ => true
  | VInt z | VInt64 z => (min_int64 <=? z) && (z <=? max_int64)
  | VFloat f => valid_binary f_prec f_emax f
  | VArr l => (Z.of_nat (length l) <=? max_int64) && forallb docb l
  | VObj m => nodupb (map fst m) && (Z.of_nat (length m) <=? max_int64) &&
              forallb (fun kv => docb (snd kv)) m
  | _ => false
  end.

Lemma nodupb_ok : forall l, nodupb l = true -> NoDup l.
Proof.
  induction l as [|k l IH]; intro H; [constructor|]. simpl in H. apply andb_prop in H as [H1 H2].
  constructor; auto. intro Hin. apply negb_true_iff in H1.
  assert (existsb (beqb k) l = true); [|congruence]. apply existsb_exists. exists k. split; auto. apply beqb_refl.
Qed.

Lemma docb_doc : forall v, docb v = true -> doc v.
Proof.
  intros v Hv x Hx. revert Hv. induction Hx; intro Hv.
  - destruct v; simpl in *; try exact I; try discriminate.
    + apply andb_prop in Hv. unfold in_int64. lia.
    + apply andb_prop in Hv. unfold in_int64. lia.
    + exact Hv.
    + apply andb_prop in Hv. lia.
    + apply andb_prop in Hv as [Hv _]. apply andb_prop in Hv as [Hv1 Hv2].
      split; [apply nodupb_ok; exact Hv1|lia].
  - apply IHHx. simpl in Hv. apply andb_prop in Hv as [_ Hv]. rewrite forallb_forall in Hv. auto.
  - apply IHHx. simpl in Hv. apply andb_prop in Hv as [_ Hv]. rewrite forallb_forall in Hv. apply (Hv _ H).
Qed.

Fixpoint arraysb (n : Z) (v : val) : bool :=
  match v with
  | VArr l => (Z.of_nat (length l) <=? n) && forallb (arraysb n) l
  | VObj m => forallb (fun kv => arraysb n (snd kv)) m
  | _ => true
  end.

Lemma arraysb_ok : forall n v, arraysb n v = true -> arrays_within n v.
Proof.
  intros n v Hv l Hl. revert Hv. remember (VArr l) as x eqn:E. induction Hl; intro Hv.
  - subst v. simpl in Hv. apply andb_prop in Hv. lia.
  - apply IHHl; auto. simpl in Hv. apply andb_prop in Hv as [_ Hv]. rewrite forallb_forall in Hv. auto.
  - apply IHHl; auto. simpl in Hv. rewrite forallb_forall in Hv. apply (Hv _ H).
Qed.

Lemma x_doc_ok : doc x_doc.
Proof. apply docb_doc. vm_compute. reflexivity. Qed.

(** the result of compiling a text and evaluating it, for computations *)
Definition run_text (fuel : nat) (W : world) (s : bytes) (root : val) : outcome rerr (list val) :=
  match JP_Compile (w_text W) s with
  | OK jp => Run fuel W 0 (jp_prog jp) root
  | _ => OutOfFuel
  end.

(** texts that are accepted, by computation *)
Lemma x_floats : literal_floats (o_parse_float x_text).
Proof.
  intros c t f Hc H. cbn [o_parse_float x_text] in H. destruct (beqb (c :: t) (b_of "1.5")); [|discriminate H].
  injection H as <-. split; discriminate.
Qed.

Definition bytesb (s : bytes) : bool := forallb (fun c => (0 <=? c) && (c <? 256)) s.
Lemma bytesb_ok : forall s, bytesb s = true -> is_bytes s.
Proof.
  intros s H. unfold bytesb in H. rewrite forallb_forall in H. apply Forall_forall. intros c Hc.
  apply H in Hc. lia.
Qed.

(** the steps and the compiled form of a text *)
Definition steps_of (s : bytes) : path := match ParsePath x_text s with OK ss => ss | _ => [] end.
Definition jp_of (s : bytes) : JSONPath :=
  match JP_Compile x_text s with OK jp => jp | _ => mkJP [] (mkProg [] []) end.
Definition acceptedb (s : bytes) : bool :=
  bytesb s && match JP_Compile x_text s with OK _ => true | _ => false end.

Lemma acceptedb_ok : forall s, acceptedb s = true -> accepted x_text s (steps_of s) (jp_of s).
Proof.
  intros s H. apply andb_prop in H as [H1 H2]. split; [apply bytesb_ok; exact H1|].
  split; [apply x_floats|]. unfold steps_of, jp_of.
  assert (H3 : JP_Compile x_text s = match ParsePath x_text s with
    | OK path => match Compile path with
      | OK prog => OK (mkJP s prog) | Fail e => Fail (ACompile e) | Panics => Panics | OutOfFuel => OutOfFuel end
    | Fail e => Fail (AParse e) | Panics => Panics | OutOfFuel => OutOfFuel end) by reflexivity.
  destruct (JP_Compile x_text s) as [jp| | |]; try discriminate. split; [|reflexivity].
  destruct (ParsePath x_text s); try discriminate. reflexivity.
Qed.

(** documents where no object has two members, by computation *)
Fixpoint loneb (v : val) : bool :=
  match v with
  | VArr l => forallb loneb l
  | VObj m => (length m <=? 1)%nat && forallb (fun kv => loneb (snd kv)) m
  | _ => true
  end.
Lemma loneb_ok : forall v, loneb v = true -> forall m, within (VObj m) v -> (length m <= 1)%nat.
Proof.
  intros v Hv m Hm. revert Hv. remember (VObj m) as x eqn:E. induction Hm; intro Hv.
  - subst v. cbn [loneb] in Hv. apply andb_prop in Hv as [Hv _]. apply Nat.leb_le. exact Hv.
  - apply IHHm; auto. cbn [loneb] in Hv. rewrite forallb_forall in Hv. auto.
  - apply IHHm; auto. cbn [loneb] in Hv. apply andb_prop in Hv as [_ Hv]. rewrite forallb_forall in Hv. apply (Hv _ H).
Qed.
