(** The constants table of a compiled path. *)
From Verif Require Import SpecSyntax Machine Coder ProgramProofs CoderProofs SpecCode CodeProofs.
Local Open Scope Z_scope.

(** the constant of a value *)
Definition to_const (v : val) : option cval :=
  match v with
  | VInt64 z => Some (CInt z)
  | VStr s => Some (CStr s)
  | VName s => Some (CName s)
  | VSlice s => Some (CSlice s)
  | VFloat f => Some (CFloat f)
  | VRegexp p => Some (CRegexp p)
  | _ => None
  end.

(** entering some values in a table *)
Definition intern1 (tbl : list cval) (v : val) : outcome cerr (list cval) :=
  if tabled v then
    match to_const v with
    | Some c =>
      match find_val c 0 tbl with
      | Some _ => OK tbl
      | None => if Z.of_nat (length tbl) >=? indexTop then Fail ErrTooManyVals else OK (tbl ++ [c])
      end
    | None => Panics
    end
  else OK tbl.

Fixpoint intern (tbl : list cval) (l : list val) : outcome cerr (list cval) :=
  match l with
  | [] => OK tbl
  | v :: r => let! tbl' := intern1 tbl v in intern tbl' r
  end.

Lemma intern_app : forall a b tbl, intern tbl (a ++ b) = let! tbl' := intern tbl a in intern tbl' b.
Proof.
  induction a as [|v a IH]; intros b tbl; simpl; auto.
  destruct (intern1 tbl v); simpl; auto.
Qed.

(** the builder's table after compiling something with literals [lits] *)
Definition interns (p : program) (lits : list val) (r : C) : Prop :=
  match r with
  | OK p' => intern (p_vals p) lits = OK (p_vals p')
  | Fail e => intern (p_vals p) lits = Fail e
  | _ => False
  end.

Lemma interns_bind : forall p l1 l2 r k, interns p l1 r ->
  (forall p', r = OK p' -> interns p' l2 (k p')) -> interns p (l1 ++ l2) (obind r k).
Proof.
  intros p l1 l2 r k H1 H2. unfold interns in *. destruct r as [p'|e| |]; simpl; try contradiction.
  - specialize (H2 p' eq_refl). destruct (k p') as [p2|e| |]; try contradiction;
      rewrite intern_app, H1; exact H2.
  - rewrite intern_app, H1. reflexivity.
Qed.

Lemma interns_asm : forall p l r o, interns p l r ->
  interns p l (let! p' := r in OK (prog_asm p' (o p'))).
Proof. intros p l r o H. destruct r; simpl in *; auto. Qed.

Lemma tabled_small : forall z, tabled (VInt64 z) = negb (isSmallInt z).
Proof.
  intro z. simpl. f_equal. unfold isSmallInt. change indexTop with 4194304.
  destruct (Z.ltb_spec z 4194304), (Z.leb_spec z (4194304 - 1)); try lia; reflexivity.
Qed.

Lemma interns_mkVal : forall p c, interns p [cval_value c]
  (match (match c with CInt n => if isSmallInt n then Some n else None | _ => None end) with
   | Some n => OK p
   | None => let! (i, p') := mkVal p c in OK p'
   end).
Proof.
  intros p c.
  assert (Ht : to_const (cval_value c) = Some c) by (destruct c; reflexivity).
  assert (Hm : tabled (cval_value c) = true ->
    interns p [cval_value c] (let! (i, p') := mkVal p c in OK p')).
  { intro Htb. unfold interns, mkVal. cbn [intern]. unfold intern1. rewrite Htb, Ht.
    destruct (find_val c 0 (p_vals p)) eqn:E; cbn [obind].
    - reflexivity.
    - unfold prog_data. destruct (Z.of_nat (length (p_vals p)) >=? indexTop); reflexivity. }
  destruct c; try (apply Hm; reflexivity). destruct (isSmallInt z) eqn:Ez.
  - unfold interns. cbn [intern cval_value]. unfold intern1. rewrite tabled_small, Ez. reflexivity.
  - apply Hm. cbn [cval_value]. rewrite tabled_small, Ez. reflexivity.
Qed.

Lemma interns_codeOp : forall p o c, interns p [cval_value c] (codeOp p o (Some c)).
Proof.
  intros p o c. pose proof (interns_mkVal p c) as H. unfold codeOp.
  destruct (match c with CInt n => if isSmallInt n then Some n else None | _ => None end) as [n|].
  - exact H.
  - destruct (mkVal p c) as [[i p']|e| |]; cbn [obind] in *; auto.
Qed.

Lemma interns_small : forall p o v, tabled v = false -> interns p [v] (OK (prog_asm p o)).
Proof. intros p o v H. unfold interns. cbn [intern]. unfold intern1. rewrite H. reflexivity. Qed.

Lemma interns_expr : forall e, wf_expr e -> forall p, interns p (literals_expr e) (codeExpr p e).
Proof.
  induction e using expr_tree_ind; intros Hwf p; cbn [literals_expr].
  - cbn [codeExpr opcode op_is_leaf]. unfold codeLeaf. cbn [opcode op_has_val negb].
    destruct (isSmallInt z) eqn:Ez.
    + apply interns_small. rewrite tabled_small, Ez. reflexivity.
    + apply (interns_codeOp p OpInt (CInt z)).
  - apply (interns_codeOp p OpReal (CFloat f)).
  - apply (interns_codeOp p OpString (CStr s)).
  - apply interns_small. reflexivity.
  - apply interns_small. reflexivity.
  - apply (interns_codeOp p OpID (CName s)).
  - reflexivity.
  - reflexivity.
  - apply (interns_codeOp p OpRE (CRegexp s)).
  - apply wf_inner in Hwf as (Hkids & Hleaf & _). rewrite codeExpr_inner by assumption.
    apply (interns_asm p _ _ (fun _ => mkSmall o (Z.of_nat (length kids)))).
    clear Hleaf. revert p. induction kids as [|k ks IH]; intro p; [reflexivity|].
    inversion H; subst. inversion Hkids; subst. cbn [flat_map codeExprs].
    apply interns_bind; auto.
Qed.

Lemma interns_args : forall args, Forall wf_arg args -> forall p,
  interns p (flat_map literals_arg args) (codeArgs p args).
Proof.
  induction args as [|a args IH]; intros HW p; [reflexivity|].
  inversion HW; subst. cbn [flat_map codeArgs]. apply interns_bind; [|auto].
  destruct a; unfold codeVal, valOp; cbn [op_has_val negb pval_const literals_arg].
  - apply (interns_codeOp p OpInt (CInt z)).
  - apply (interns_codeOp p OpString (CStr s)).
  - apply (interns_codeOp p OpID (CName s)).
  - apply (interns_codeOp p OpBounds (CSlice sl)).
  - apply interns_expr. assumption.
Qed.

Lemma interns_step : forall s, wf_step s -> forall p,
  interns p (flat_map literals_arg (st_args s)) (codePathStep p s).
Proof.
  intros s Hwf p. pose proof (wf_step_ok s Hwf) as Hok.
  assert (Hs : forall p, interns p (flat_map literals_arg (st_args s)) (codeStep p s)).
  { intro q. apply (interns_asm q _ _ (fun _ => _)). apply interns_args. apply wf_step_args. exact Hwf. }
  assert (Hl : forall k, interns p (flat_map literals_arg (st_args s)) (codeLoop p s k)).
  { intro k. unfold codeLoop. specialize (Hs (prog_asm p (mkSmall k 0))).
    destruct (codeStep (prog_asm p (mkSmall k 0)) s); simpl in *; auto. }
  unfold codePathStep. destruct (st_op s); simpl in Hok; try contradiction; simpl; auto.
Qed.

Lemma interns_path : forall ss, wf_path ss -> forall p, interns p (literals ss) (codePath p ss).
Proof.
  induction ss as [|s ss IH]; intros HW p; [reflexivity|].
  inversion HW; subst. change (literals (s :: ss)) with (flat_map literals_arg (st_args s) ++ literals ss).
  cbn [codePath]. apply interns_bind; [apply interns_step; auto|auto].
Qed.

Lemma compile_interns : forall ss, wf_path ss -> interns (mkProg [] []) (literals ss) (Compile ss).
Proof. intros. apply interns_path; auto. Qed.

(** ** Tables *)
Definition lit_val (v : val) : Prop := match v with VFloat f => lit_float f | _ => True end.

Lemma literals_lit_expr : forall e, wf_expr e -> Forall lit_val (literals_expr e).
Proof.
  induction e using expr_tree_ind; intro Hwf; cbn [literals_expr]; repeat constructor;
    try (inversion Hwf; subst; assumption).
  - inversion Hwf; subst. apply H0.
  - inversion Hwf; subst. apply H0.
  - apply wf_inner in Hwf as (Hk & _). induction H; simpl; [constructor|].
    inversion Hk; subst. apply Forall_app. auto.
Qed.

Lemma literals_lit : forall ss, wf_path ss -> Forall lit_val (literals ss).
Proof.
  intros ss H. apply Forall_flat_map. eapply Forall_impl; [|exact H]. cbv beta. intros s Hs.
  apply Forall_flat_map. eapply Forall_impl; [|apply wf_step_args; exact Hs]. cbv beta. intros a Ha.
  destruct a; simpl; repeat constructor. apply literals_lit_expr. exact Ha.
Qed.

Lemma f_eqb_self : forall f, lit_float f -> f_eqb f f = true.
Proof.
  intros f [H1 H2]. unfold f_eqb, SFeqb. destruct f as [s|s| |s m e]; try congruence; simpl.
  - destruct s; reflexivity.
  - destruct s; reflexivity.
  - rewrite Z.compare_refl. destruct s;
      rewrite ?Pos.compare_cont_refl; simpl; rewrite ?Pos.compare_refl; reflexivity.
Qed.

Lemma key_eqb_self : forall c, lit_cval c -> shared (cval_value c) = true -> key_eqb c c = true.
Proof.
  intros c H1 H2. destruct c; try discriminate H2; simpl.
  - apply Z.eqb_refl.
  - apply beqb_refl.
  - apply beqb_refl.
  - apply f_eqb_self. exact H1.
Qed.

Lemma key_eqb_shared : forall c d, key_eqb c d = true -> shared (cval_value c) = true.
Proof. intros c d H. destruct c, d; try discriminate H; reflexivity. Qed.

Lemma find_val_none : forall c l i, find_val c i l = None <-> Forall (fun d => key_eqb c d = false) l.
Proof.
  intros c l. induction l as [|d l IH]; intro i; simpl.
  - split; auto.
  - destruct (key_eqb c d) eqn:E.
    + split; [discriminate|]. intro H. inversion H. congruence.
    + rewrite IH. split; intro H; [constructor; auto|inversion H; auto].
Qed.

Lemma cval_value_inj : forall c d, cval_value c = cval_value d -> c = d.
Proof. intros c d H. destruct c, d; simpl in H; try discriminate; congruence. Qed.

Lemma to_const_value : forall v c, to_const v = Some c -> cval_value c = v.
Proof. intros v c H. destruct v; simpl in H; try discriminate; injection H as <-; reflexivity. Qed.

Lemma intern1_table : forall l tbl v c, Forall lit_cval tbl -> to_const v = Some c -> lit_val v ->
  table_of l (map cval_value tbl) ->
  (find_val c 0 tbl <> None -> table_of (l ++ [v]) (map cval_value tbl)) /\
  (find_val c 0 tbl = None -> table_of (l ++ [v]) (map cval_value (tbl ++ [c]))).
Proof.
  intros l tbl v c Ht Hc Hv Hl. pose proof (to_const_value v c Hc) as E.
  assert (Hlc : lit_cval c) by (destruct v; simpl in Hc; try discriminate; injection Hc as <-; exact Hv || exact I).
  split; intro H.
  - destruct (find_val c 0 tbl) as [j|] eqn:Ef; [|congruence].
    destruct (find_val_nth c tbl 0 j Hlc Ht Ef) as [_ Hn].
    apply nth_error_In in Hn. apply ToOld; auto.
    + assert (Hex : exists d, In d tbl /\ key_eqb c d = true).
      { clear - Ef. revert Ef. generalize 0. induction tbl as [|d tbl IH]; intros i Ef; simpl in Ef; [discriminate|].
        destruct (key_eqb c d) eqn:E; [exists d; simpl; auto|]. destruct (IH _ Ef) as (d' & H1 & H2). exists d'. simpl. auto. }
      destruct Hex as (d & _ & Hd). rewrite <- E. eapply key_eqb_shared; eauto.
    + rewrite <- E. apply in_map. exact Hn.
  - rewrite map_app. simpl. rewrite E. apply ToNew; auto. intros Hs Hin. rewrite <- E in Hin, Hs.
    apply in_map_iff in Hin as (d & Hd & Hin). apply cval_value_inj in Hd. subst d.
    apply find_val_none in H. rewrite Forall_forall in H. specialize (H c Hin).
    rewrite key_eqb_self in H; auto; discriminate.
Qed.

Definition lits_ok (l : list val) : Prop :=
  Forall (fun v => tabled v = true -> to_const v <> None) l /\ Forall lit_val l.

Lemma intern_table : forall lits tbl l, Forall lit_cval tbl -> lits_ok lits ->
  table_of l (map cval_value tbl) ->
  Z.of_nat (length tbl) <= indexTop ->
  match intern tbl lits with
  | OK tbl' => table_of (l ++ filter tabled lits) (map cval_value tbl') /\ Forall lit_cval tbl' /\
      Z.of_nat (length tbl') <= indexTop
  | Fail _ => exists pre post t, filter tabled lits = pre ++ post /\ table_of (l ++ pre) t /\
      Z.of_nat (length t) = indexTop + 1
  | _ => False
  end.
Proof.
  induction lits as [|v lits IH]; intros tbl l Ht [Hc Hl] Htab Hlen; simpl.
  - rewrite app_nil_r. auto.
  - inversion Hc; inversion Hl; subst. unfold intern1. destruct (tabled v) eqn:Et; cbn [obind].
    2:{ apply IH; auto. split; auto. }
    destruct (to_const v) as [c|] eqn:Ev; [|exfalso; apply H1; auto].
    assert (Hlc : lit_cval c) by (destruct v; simpl in Ev; try discriminate; injection Ev as <-; auto || exact I).
    destruct (intern1_table l tbl v c Ht Ev H5 Htab) as [A B].
    destruct (find_val c 0 tbl) as [j|] eqn:Ef; cbn [obind].
    + specialize (A ltac:(discriminate)).
      pose proof (IH tbl (l ++ [v]) Ht (conj H2 H6) A Hlen) as HI.
      destruct (intern tbl lits) as [tbl'|e| |]; auto.
      * rewrite <- app_assoc in HI. exact HI.
      * destruct HI as (pre & post & t & E & Hp & Hn). exists (v :: pre), post, t.
        rewrite <- app_assoc in Hp. simpl. rewrite E. auto.
    + specialize (B eq_refl). destruct (Z.geb_spec (Z.of_nat (length tbl)) indexTop); cbn [obind].
      * exists [v], (filter tabled lits), (map cval_value (tbl ++ [c])). split; [reflexivity|].
        split; [exact B|]. rewrite map_length, app_length. cbn [length]. change indexTop with 4194304 in *. lia.
      * assert (Ht' : Forall lit_cval (tbl ++ [c])) by (apply Forall_app; auto).
        pose proof (IH (tbl ++ [c]) (l ++ [v]) Ht' (conj H2 H6) B) as HI.
        rewrite app_length in HI. cbn [length] in HI. specialize (HI ltac:(lia)).
        destruct (intern (tbl ++ [c]) lits) as [tbl'|e| |]; auto.
        -- rewrite <- app_assoc in HI. exact HI.
        -- destruct HI as (pre & post & t & E & Hp & Hn). exists (v :: pre), post, t.
           rewrite <- app_assoc in Hp. simpl. rewrite E. auto.
Qed.

Lemma literals_const_expr : forall e, Forall (fun v => tabled v = true -> to_const v <> None) (literals_expr e).
Proof.
  induction e using expr_tree_ind; cbn [literals_expr]; repeat constructor; try (simpl; discriminate).
  induction H; simpl; [constructor|]. apply Forall_app. auto.
Qed.

Lemma literals_ok : forall ss, wf_path ss -> lits_ok (literals ss).
Proof.
  intros ss H. split; [|apply literals_lit; auto].
  apply Forall_flat_map. apply Forall_forall. intros s _. apply Forall_flat_map. apply Forall_forall.
  intros a _. destruct a; simpl; try (constructor; [simpl; discriminate|constructor]). apply literals_const_expr.
Qed.

(** the table of a list of constants is unique *)
Lemma table_fun : forall l t, table_of l t -> forall t', table_of l t' -> t = t'.
Proof.
  intros l t H. induction H; intros t' H'; inversion H'; subst; auto;
    try (match goal with H : [] = _ ++ [_] |- _ => destruct (app_cons_not_nil _ _ _ H) end);
    try (match goal with H : _ ++ [_] = [] |- _ => symmetry in H; destruct (app_cons_not_nil _ _ _ H) end);
    match goal with H : _ ++ [_] = _ ++ [_] |- _ => apply app_inj_tail in H as [-> ->] end.
  - auto.
  - exfalso. pose proof (IHtable_of _ H3). subst. apply H4; auto.
  - exfalso. pose proof (IHtable_of _ H2). subst. apply H0; auto.
  - f_equal. auto.
Qed.

Lemma table_longer : forall post l t t', table_of l t -> table_of (l ++ post) t' ->
  (length t <= length t')%nat.
Proof.
  intro post. induction post as [|v post IH] using rev_ind; intros l t t' H H'.
  - rewrite app_nil_r in H'. rewrite (table_fun _ _ H _ H'). lia.
  - rewrite app_assoc in H'. inversion H'; subst;
      try (match goal with H : [] = _ ++ [_] |- _ => destruct (app_cons_not_nil _ _ _ H) end);
      match goal with H : _ ++ [_] = _ ++ [_] |- _ => apply app_inj_tail in H as [-> ->] end.
    + eauto.
    + pose proof (IH _ _ _ H H1). rewrite app_length. lia.
Qed.

(** ** Results about Compile *)
Lemma compile_table : forall ss p, wf_path ss -> Compile ss = OK p ->
  table_of (filter tabled (literals ss)) (map cval_value (p_vals p)) /\
  Z.of_nat (length (p_vals p)) <= 4194304.
Proof.
  intros ss p Hwf Hc. pose proof (compile_interns ss Hwf) as Hi. rewrite Hc in Hi. simpl in Hi.
  pose proof (intern_table (literals ss) [] [] (Forall_nil _) (literals_ok ss Hwf) ToNil) as H.
  rewrite Hi in H. simpl in H. destruct H as (A & _ & B); [discriminate|].
  split; [exact A|exact B].
Qed.

Lemma compile_outcome : forall ss t, wf_path ss -> table_of (filter tabled (literals ss)) t ->
  (Z.of_nat (length t) <= 4194304 <-> exists p, Compile ss = OK p) /\
  (Z.of_nat (length t) > 4194304 <-> Compile ss = Fail ErrTooManyVals).
Proof.
  intros ss t Hwf Ht. pose proof (compile_interns ss Hwf) as Hi.
  pose proof (intern_table (literals ss) [] [] (Forall_nil _) (literals_ok ss Hwf) ToNil) as H.
  simpl in H. specialize (H ltac:(discriminate)).
  destruct (Compile ss) as [p|e| |] eqn:Ec; simpl in Hi; try contradiction; rewrite Hi in H; change indexTop with 4194304 in H.
  - destruct H as (A & _ & B). rewrite (table_fun _ _ Ht _ A), map_length.
    split; split; intro K; eauto; try lia; discriminate.
  - destruct H as (pre & post & t' & E & Hp & Hn). rewrite E in Ht.
    pose proof (table_longer _ _ _ _ Hp Ht). destruct e.
    split; split; intro K; auto; try lia. destruct K; discriminate.
Qed.

Lemma table_exists : forall l, Forall lit_val l -> Forall (fun v => to_const v <> None) l ->
  exists t, table_of l t /\ exists cs, t = map cval_value cs /\ Forall lit_cval cs.
Proof.
  induction l as [|v l IH] using rev_ind; intros H1 H2; [exists []; split; [constructor|exists []; auto]|].
  apply Forall_app in H1 as [H1 K1]. apply Forall_app in H2 as [H2 K2].
  destruct (IH H1 H2) as (t & Ht & cs & -> & Hcs). inversion K1; inversion K2; subst.
  destruct (to_const v) as [c|] eqn:Ev; [|congruence].
  assert (Hlc : lit_cval c) by (destruct v; simpl in Ev; try discriminate; injection Ev as <-; auto || exact I).
  destruct (intern1_table l cs v c Hcs Ev H3 Ht) as [A B].
  destruct (find_val c 0 cs) as [j|].
  - specialize (A ltac:(discriminate)). eexists. split; [exact A|]. eauto.
  - specialize (B eq_refl). eexists. split; [exact B|]. exists (cs ++ [c]). split; auto. apply Forall_app. auto.
Qed.

(** no two shared constants of a table are equal *)
Lemma table_nodup : forall l t, table_of l t -> NoDup (filter shared t).
Proof.
  intros l t H. induction H; auto; [constructor|].
  rewrite filter_app. simpl. destruct (shared v) eqn:E; [|rewrite app_nil_r; exact IHtable_of].
  specialize (H0 eq_refl). apply (NoDup_Add (a := v) (l := filter shared t)).
  - pose proof (Add_app v (filter shared t) []) as HA. rewrite app_nil_r in HA. exact HA.
  - split; auto. intro Hin. apply filter_In in Hin as [Hin _]. auto.
Qed.
