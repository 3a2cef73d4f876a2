(** The text of a compiled path is its listing. *)
From Verif Require Import SpecSyntax Machine Coder Eval ProgramProofs StackProofs MachineProofs
  CoderProofs SpecCode CodeProofs TableProofs SpecSelect SelectProofs Listing SpecListing.
Local Open Scope Z_scope.

Definition shows (ord : order) (w : bytes) : Prop := forall sb, order_String sb ord = Some (sb ++ w).
Definition consts (p : program) : list val := map cval_value (p_vals p).

(** the builder went from [p] to [p'] by appending code listed as [is] *)
Definition wrote (p p' : program) (is : list instr) : Prop :=
  exists seg ws, emits p p' seg /\ listed (consts p) is ws (consts p') /\ Forall2 shows seg ws.

Lemma listed_app : forall t a wa t1, listed t a wa t1 -> forall b wb t2, listed t1 b wb t2 ->
  listed t (a ++ b) (wa ++ wb) t2.
Proof.
  intros t a wa t1 H. induction H; intros b wb t2 Hb; cbn [app]; auto; [apply LsPlain|apply LsOld|apply LsNew]; auto.
Qed.

Lemma listed_length : forall t is ws t', listed t is ws t' -> length ws = length is.
Proof. intros t is ws t' H. induction H; simpl; auto. Qed.

Lemma forall2_len : forall A B (R : A -> B -> Prop) l m, Forall2 R l m -> length l = length m.
Proof. intros A B R l m H. induction H; simpl; auto. Qed.

Lemma wrote_app : forall p p1 p2 a b, wrote p p1 a -> wrote p1 p2 b -> wrote p p2 (a ++ b).
Proof.
  intros p p1 p2 a b (s1 & w1 & E1 & L1 & F1) (s2 & w2 & E2 & L2 & F2).
  exists (s1 ++ s2), (w1 ++ w2). split; [eapply emits_app; eauto|]. split; [eapply listed_app; eauto|].
  apply Forall2_app; auto.
Qed.

Lemma wrote_nil : forall p, vals_lit p -> vals_small p -> wrote p p [].
Proof.
  intros p Hv Hs. exists [], []. split; [|split; constructor].
  split; [symmetry; apply app_nil_r|]. split; [apply vals_le_refl|auto].
Qed.

Lemma wrote_asm : forall p o i, vals_lit p -> vals_small p -> needs_entry i = false ->
  shows o (plain_word i) -> wrote p (prog_asm p o) [i].
Proof.
  intros p o i Hv Hs Hi H. exists [o], [plain_word i]. split; [apply emits_asm; auto|].
  split; [apply LsPlain; [exact Hi|apply LsEnd]|]. constructor; auto.
Qed.

Lemma trim_word : forall o, trimOp (op_num o) = Some (op_word o).
Proof. intro o. destruct o; vm_compute; reflexivity. Qed.

Lemma shows_numbered : forall o n, op_is_leaf o = false -> shows (mkSmall o n) (numbered o n).
Proof.
  intros o n Ho sb. unfold order_String.
  rewrite order_op_small, trim_word, op_of_num_num, Ho, small_is_small, order_small_int_wrap.
  unfold numbered. cbn [andb]. change (wrap23 n) with ((n + 4194304) mod 8388608 - 4194304).
  destruct ((n + 4194304) mod 8388608 - 4194304 =? 0); cbn [negb].
  - rewrite app_nil_r. reflexivity.
  - rewrite sprint_int_decimal, !app_assoc. reflexivity.
Qed.

Lemma shows_bare : forall o n, op_is_leaf o = true -> op_has_val o = false -> shows (mkSmall o n) (op_word o).
Proof.
  intros o n Ho Hv sb. unfold order_String.
  rewrite order_op_small, trim_word, op_of_num_num, Ho, Hv. reflexivity.
Qed.

Lemma shows_small : forall o n, op_is_leaf o = true -> op_has_val o = true -> isSmallInt n = true ->
  shows (mkSmall o n) (op_word o ++ b_of "(" ++ decimal n ++ b_of ")").
Proof.
  intros o n Ho Hv Hn sb. unfold order_String.
  rewrite order_op_small, trim_word, op_of_num_num, Ho, Hv, small_is_small, order_small_int_small by assumption.
  cbn [negb]. rewrite sprint_int_decimal, !app_assoc. reflexivity.
Qed.

Lemma shows_entry : forall o k, op_is_leaf o = true -> op_has_val o = true -> Z.of_nat k < 4194304 ->
  shows (mkOrder o (Z.of_nat k)) (op_word o ++ b_of "[" ++ decimal (Z.of_nat k) ++ b_of "]").
Proof.
  intros o k Ho Hv Hk sb. unfold order_String.
  rewrite order_op_order, trim_word, op_of_num_num, Ho, Hv, order_not_small, order_index_order by lia.
  cbn [negb]. rewrite sprint_int_decimal, !app_assoc. reflexivity.
Qed.

(** the operator a constant is loaded with *)
Definition const_op (c : cval) : op :=
  match c with
  | CInt _ => OpInt
  | CStr _ => OpString
  | CName _ => OpID
  | CSlice _ => OpBounds
  | CFloat _ => OpReal
  | CRegexp _ => OpRE
  end.

Lemma find_val_shared : forall c l i j, find_val c i l = Some j -> shared (cval_value c) = true.
Proof.
  intros c l. induction l as [|d l IH]; intros i j H; simpl in H; [discriminate|].
  destruct (key_eqb c d) eqn:E; [eapply key_eqb_shared; eauto|eauto].
Qed.

Lemma wrote_const : forall p p' c, lit_cval c -> vals_lit p -> vals_small p ->
  codeOp p (const_op c) (Some c) = OK p' -> wrote p p' [ILoad (cval_value c)].
Proof.
  intros p p' c Hc Hv Hs H. unfold codeOp in H.
  destruct (match c with CInt n => if isSmallInt n then Some n else None | _ => None end)
    as [n|] eqn:E.
  - injection H as <-. destruct c; try discriminate.
    destruct (isSmallInt z) eqn:Ez; [|discriminate]. injection E as <-.
    apply wrote_asm; auto.
    + cbn [needs_entry cval_value]. rewrite tabled_small, Ez. reflexivity.
    + apply (shows_small OpInt z); auto.
  - assert (Ht : tabled (cval_value c) = true).
    { destruct c; try reflexivity. cbn [cval_value]. rewrite tabled_small. destruct (isSmallInt z); [discriminate|reflexivity]. }
    destruct (mkVal p c) as [[i p1]| | |] eqn:Em; simpl in H; try discriminate. injection H as <-.
    destruct (mkVal_ok _ _ _ _ Hc Hv Hs Em) as (H1 & H2 & H3 & H4 & H5 & H6).
    assert (Hem : emits p (prog_asm p1 (mkOrder (const_op c) i)) [mkOrder (const_op c) i]).
    { split; [simpl; rewrite H1; reflexivity|]. split; [exact H2|auto]. }
    assert (Hop : op_is_leaf (const_op c) = true /\ op_has_val (const_op c) = true) by (destruct c; split; reflexivity).
    destruct Hop as [Ho Hh].
    assert (Hw : forall k, entry_word (cval_value c) k = op_word (const_op c) ++ b_of "[" ++ decimal (Z.of_nat k) ++ b_of "]")
      by (intro k; destruct c; reflexivity).
    unfold mkVal in Em. destruct (find_val c 0 (p_vals p)) as [j|] eqn:Ef.
    + injection Em as <- <-.
      destruct (find_val_nth c (p_vals p) 0 j Hc Hv Ef) as [Hj Hn]. rewrite Z.sub_0_r in Hn.
      exists [mkOrder (const_op c) j], [entry_word (cval_value c) (Z.to_nat j)]. split; [exact Hem|]. split.
      * apply LsOld; [exact Ht|eapply find_val_shared; eauto|unfold consts; rewrite nth_error_map, Hn; reflexivity|apply LsEnd].
      * constructor; [|constructor]. rewrite Hw. rewrite <- (Z2Nat.id j) at 1 by lia. apply shows_entry; auto.
        assert (Hlt : (Z.to_nat j < length (p_vals p))%nat) by (apply nth_error_Some; congruence). unfold vals_small in Hs. change indexTop with 4194304 in Hs. lia.
    + unfold prog_data in Em. destruct (Z.of_nat (length (p_vals p)) >=? indexTop) eqn:El; [discriminate|].
      injection Em as <- <-.
      exists [mkOrder (const_op c) (Z.of_nat (length (p_vals p)))], [entry_word (cval_value c) (length (consts p))].
      split; [exact Hem|]. split.
      * apply LsNew; [exact Ht| |].
        -- intros Hsh Hin. apply in_map_iff in Hin as (d & Hd & Hin). apply cval_value_inj in Hd. subst d.
           apply find_val_none in Ef. rewrite Forall_forall in Ef. specialize (Ef c Hin).
           rewrite key_eqb_self in Ef; auto; discriminate.
        -- unfold consts at 2. cbn [prog_asm p_vals]. rewrite map_app. apply LsEnd.
      * constructor; [|constructor]. rewrite Hw. unfold consts. rewrite map_length. apply shows_entry; auto.
        change indexTop with 4194304 in El. lia.
Qed.

Lemma wrote_expr : forall e, wf_expr e -> forall p p', vals_lit p -> vals_small p ->
  codeExpr p e = OK p' -> wrote p p' (list_expr e).
Proof.
  induction e using expr_tree_ind; intros Hwf p p' Hv Hs Hc.
  - cbn in Hc. destruct (isSmallInt z) eqn:Ez.
    + injection Hc as <-. apply wrote_asm; auto.
      * cbn [needs_entry]. rewrite tabled_small, Ez. reflexivity.
      * apply (shows_small OpInt z); auto.
    + apply (wrote_const p p' (CInt z)); simpl; auto. rewrite Ez. exact Hc.
  - inversion Hwf; subst. apply (wrote_const p p' (CFloat f)); simpl; auto.
  - apply (wrote_const p p' (CStr s)); simpl; auto.
  - injection Hc as <-. apply wrote_asm; auto.
    destruct b; [apply (shows_small OpBool 1)|apply (shows_small OpBool 0)]; reflexivity.
  - injection Hc as <-. apply wrote_asm; auto. apply (shows_bare OpNull); reflexivity.
  - apply (wrote_const p p' (CName s)); simpl; auto.
  - injection Hc as <-. apply wrote_asm; auto. apply (shows_bare OpCurrent); reflexivity.
  - injection Hc as <-. apply wrote_asm; auto. apply (shows_bare OpRoot); reflexivity.
  - apply (wrote_const p p' (CRegexp s)); simpl; auto.
  - apply wf_inner in Hwf as (Hkids & Hleaf & _).
    rewrite codeExpr_inner in Hc by assumption.
    destruct (codeExprs p kids) as [p1| | |] eqn:E1; simpl in Hc; try discriminate.
    injection Hc as <-. cbn [list_expr].
    assert (Hk : wrote p p1 (flat_map list_expr kids) /\ vals_lit p1 /\ vals_small p1).
    { clear Hleaf. revert p p1 Hv Hs E1. induction kids as [|k ks IH]; intros p p1 Hv Hs E1; simpl in E1.
      - injection E1 as <-. split; [apply wrote_nil; auto|auto].
      - inversion H; subst. inversion Hkids; subst.
        destruct (codeExpr p k) as [q| | |] eqn:E; simpl in E1; try discriminate.
        pose proof (H2 H4 p q Hv Hs E) as Hq. pose proof Hq as (sg & ws & (_ & _ & Hv1 & Hs1) & _).
        destruct (IH H3 H5 q p1 Hv1 Hs1 E1) as [Hc1 Hv2].
        split; [eapply wrote_app; eauto|auto]. }
    destruct Hk as (Hcode & Hv1 & Hs1). eapply wrote_app; [exact Hcode|].
    apply wrote_asm; auto. apply shows_numbered. exact Hleaf.
Qed.

Lemma wrote_args : forall args, Forall wf_arg args -> forall p p', vals_lit p -> vals_small p ->
  codeArgs p args = OK p' -> wrote p p' (flat_map list_arg args) /\ vals_lit p' /\ vals_small p'.
Proof.
  induction args as [|a args IH]; intros HW p p' Hv Hs Hc; simpl in Hc.
  - injection Hc as <-. split; [apply wrote_nil; auto|auto].
  - inversion HW; subst.
    destruct (codeVal p (valOp a) a) as [q| | |] eqn:E; simpl in Hc; try discriminate.
    assert (Hq : wrote p q (list_arg a)).
    { destruct a; unfold codeVal, valOp in E; cbn [op_has_val negb pval_const] in E.
      - apply (wrote_const p q (CInt z)); simpl; auto.
      - apply (wrote_const p q (CStr s)); simpl; auto.
      - apply (wrote_const p q (CName s)); simpl; auto.
      - apply (wrote_const p q (CSlice sl)); simpl; auto.
      - apply (wrote_expr e); auto. }
    pose proof Hq as (sg & ws & (_ & _ & Hv1 & Hs1) & _).
    destruct (IH H2 q p' Hv1 Hs1 Hc) as [H3 H4]. split; auto. eapply wrote_app; eauto.
Qed.

Lemma wrote_body : forall s, wf_step s -> forall p p', vals_lit p -> vals_small p ->
  codeStep p s = OK p' -> wrote p p' (list_body s) /\ vals_lit p' /\ vals_small p'.
Proof.
  intros s Hwf p p' Hv Hs Hc. unfold codeStep in Hc.
  destruct (codeArgs p (st_args s)) as [q| | |] eqn:E; simpl in Hc; try discriminate.
  injection Hc as <-.
  destruct (wrote_args _ (wf_step_args s Hwf) p q Hv Hs E) as (Hq & Hv1 & Hs1).
  split; [|auto]. eapply wrote_app; [exact Hq|]. apply wrote_asm; auto. cbn [plain_word].
  pose proof (wf_step_ok s Hwf) as Hok. destruct (st_op s); simpl in Hok; try contradiction;
    try (apply shows_numbered; reflexivity).
  rewrite Hok. apply (shows_bare OpWild 0); reflexivity.
Qed.

Lemma wrote_loop : forall s k, wf_step s -> loop_of (st_op s) = Some k ->
  forall p p', vals_lit p -> vals_small p -> codeLoop p s k = OK p' ->
  wrote p p' (list_step (prog_size p) s).
Proof.
  intros s k Hwf Hk p p' Hv Hs Hc. unfold codeLoop in Hc.
  destruct (codeStep (prog_asm p (mkSmall k 0)) s) as [p2| | |] eqn:E1; simpl in Hc; try discriminate.
  injection Hc as <-.
  assert (Em0 : emits p (prog_asm p (mkSmall k 0)) [mkSmall k 0]) by (apply emits_asm; assumption).
  pose proof Em0 as (_ & Hle0 & Hv0 & Hs0).
  destruct (wrote_body s Hwf _ p2 Hv0 Hs0 E1) as ((body & ws & Em & Hl & Hd) & Hv1 & Hs1).
  pose proof Em as (Ho2 & Hle & _).
  set (lpc := prog_size (prog_asm p (mkSmall k 0))) in *.
  set (p3 := prog_asm p2 (mkSmall OpRep lpc)) in *.
  assert (Hlb : length body = length (list_body s)).
  { rewrite <- (listed_length _ _ _ _ Hl). eapply forall2_len; eauto. }
  assert (Hlpc : lpc = prog_size p + 1).
  { unfold lpc. rewrite (emits_size _ _ _ Em0). reflexivity. }
  assert (Hp2 : prog_size p2 = prog_size p + 1 + Z.of_nat (length body)).
  { rewrite (emits_size _ _ _ Em). fold lpc. lia. }
  assert (Hp3 : prog_size p3 = prog_size p + 2 + Z.of_nat (length body)).
  { unfold p3. rewrite (emits_size _ _ [mkSmall OpRep lpc] (emits_asm _ _ Hv1 Hs1)). simpl. lia. }
  exists (mkSmall k (prog_size p3) :: body ++ [mkSmall OpRep lpc]),
    (numbered k (prog_size p3) :: ws ++ [numbered OpRep lpc]).
  assert (Hem : emits p (prog_patch p3 (prog_size p) (mkSmall k (prog_size p3)))
    (mkSmall k (prog_size p3) :: body ++ [mkSmall OpRep lpc])).
  { split; [|split].
    - unfold prog_patch, p3, prog_asm in *. cbn [p_orders] in *. rewrite Ho2.
      unfold prog_size at 1. rewrite Nat2Z.id. rewrite <- !app_assoc.
      cbn [app]. rewrite set_nth_app. reflexivity.
    - eapply vals_le_trans; [exact Hle0|]. exact Hle.
    - split; [exact Hv1|exact Hs1]. }
  assert (Hkl : op_is_leaf k = false) by (destruct (st_op s); simpl in Hk; try discriminate; injection Hk as <-; reflexivity).
  split; [exact Hem|]. unfold list_step. rewrite Hk. split.
  - rewrite Hp3, Hlpc, Hlb. apply (LsPlain _ (ILoop k (prog_size p + 2 + Z.of_nat (length (list_body s))))); [reflexivity|].
    eapply listed_app; [exact Hl|]. apply (LsPlain _ (IRep (prog_size p + 1))); [reflexivity|]. apply LsEnd.
  - constructor; [apply shows_numbered; exact Hkl|]. apply Forall2_app; [exact Hd|].
    constructor; [apply shows_numbered; reflexivity|constructor].
Qed.

Lemma wrote_step : forall s, wf_step s -> forall p p', vals_lit p -> vals_small p ->
  codePathStep p s = OK p' -> wrote p p' (list_step (prog_size p) s).
Proof.
  intros s Hwf p p' Hv Hs Hc. pose proof (wf_step_ok s Hwf) as Hok. unfold codePathStep in Hc.
  destruct (loop_of (st_op s)) as [k|] eqn:Ek.
  - eapply wrote_loop; eauto.
    destruct (st_op s); try discriminate Ek; simpl in Ek; injection Ek as <-; exact Hc.
  - unfold list_step. rewrite Ek. apply wrote_body; auto.
    destruct (st_op s); simpl in Hok; try contradiction; try discriminate Ek; exact Hc.
Qed.

Lemma wrote_path : forall ss, wf_path ss -> forall p p', vals_lit p -> vals_small p ->
  codePath p ss = OK p' -> wrote p p' (list_path (prog_size p) ss).
Proof.
  induction ss as [|s ss IH]; intros HW p p' Hv Hs Hc; simpl in Hc.
  - injection Hc as <-. apply wrote_nil; auto.
  - inversion HW; subst.
    destruct (codePathStep p s) as [q| | |] eqn:E; simpl in Hc; try discriminate.
    pose proof (wrote_step s H1 p q Hv Hs E) as Hq.
    pose proof Hq as (sg & ws & Em & Hl & Hd). pose proof Em as (_ & _ & Hv1 & Hs1).
    cbn [list_path]. eapply wrote_app; [exact Hq|].
    rewrite <- (listed_length _ _ _ _ Hl), <- (forall2_len _ _ _ _ _ Hd), <- (emits_size _ _ _ Em). apply IH; auto.
Qed.

Lemma compile_listed : forall ss p, wf_path ss -> Compile ss = OK p ->
  exists ws, listed [] (list_path 0 ss) ws (consts p) /\ Forall2 shows (p_orders p) ws.
Proof.
  intros ss p Hwf Hc. destruct start_ok as [Hv Hs].
  destruct (wrote_path ss Hwf _ p Hv Hs Hc) as (seg & ws & (Ho & _) & Hl & Hd).
  simpl in Ho. subst seg. exists ws. split; [exact Hl|exact Hd].
Qed.

(** ** The whole text *)
Section text.
Variable F : printers.

Lemma bound_String_text : forall b, bound_String F b = bound_text F b.
Proof.
  intros [z|e]; cbn [bound_String bound_text]; [apply sprint_int_decimal|].
  destruct e as [ | | |[|]| | | | | |o]; cbn [expr_String]; auto; [apply sprint_int_decimal|destruct o; vm_compute; reflexivity].
Qed.

Lemma cval_String_text : forall c, cval_String F c = const_text F (cval_value c).
Proof.
  intros [z|s|s|s|f|p]; cbn [cval_String cval_value const_text]; auto; [apply sprint_int_decimal|].
  destruct s as [a b c]. unfold slice_String, opt_text. cbn [sl_start sl_end sl_stride].
  destruct a, b, c; rewrite ?bound_String_text, <- ?app_assoc; reflexivity.
Qed.

Definition prefixed (ws : list bytes) : bytes := flat_map (fun w => b_of " " ++ w) ws.

Lemma spaced_cons : forall w ws, spaced (w :: ws) = w ++ prefixed ws.
Proof.
  intros w ws. revert w. induction ws as [|v ws IH]; intro w; [symmetry; apply app_nil_r|].
  change (spaced (w :: v :: ws)) with (w ++ b_of " " ++ spaced (v :: ws)). rewrite IH. cbn [prefixed flat_map].
  rewrite <- !app_assoc. reflexivity.
Qed.

Lemma vals_String_more : forall vals sb,
  vals_String F sb true vals = sb ++ prefixed (map (const_text F) (map cval_value vals)).
Proof.
  induction vals as [|v vals IH]; intro sb; cbn [vals_String map]; [symmetry; apply app_nil_r|].
  rewrite IH, cval_String_text. cbn [prefixed flat_map]. rewrite <- !app_assoc. reflexivity.
Qed.

Lemma vals_String_spaced : forall vals, vals_String F [] false vals = spaced (map (const_text F) (map cval_value vals)).
Proof.
  intros [|v vals]; [reflexivity|]. cbn [vals_String map app]. rewrite vals_String_more, spaced_cons, cval_String_text. reflexivity.
Qed.

Lemma orders_String_more : forall ords ws, Forall2 shows ords ws -> forall sb,
  orders_String sb true ords = Some (sb ++ prefixed ws).
Proof.
  intros ords ws H. induction H as [|o w ords ws Ho H IH]; intro sb; cbn [orders_String]; [rewrite app_nil_r; reflexivity|].
  rewrite Ho, IH. cbn [prefixed flat_map]. rewrite <- !app_assoc. reflexivity.
Qed.

Lemma orders_String_spaced : forall ords ws, Forall2 shows ords ws -> forall sb,
  orders_String sb false ords = Some (sb ++ spaced ws).
Proof.
  intros ords ws H sb. destruct H as [|o w ords ws Ho H]; cbn [orders_String]; [rewrite app_nil_r; reflexivity|].
  rewrite Ho, (orders_String_more _ _ H), spaced_cons, <- app_assoc. reflexivity.
Qed.

Lemma spaced_app : forall a b, a <> [] -> b <> [] -> spaced (a ++ b) = spaced a ++ b_of " " ++ spaced b.
Proof.
  intros [|x a] b Ha Hb; [congruence|]. destruct b as [|y b]; [congruence|].
  cbn [app]. rewrite !spaced_cons. unfold prefixed. rewrite flat_map_app. cbn [flat_map]. rewrite <- !app_assoc. reflexivity.
Qed.

Lemma listed_empty : forall t ws t', listed t [] ws t' -> t' = t.
Proof. intros t ws t' H. inversion H. reflexivity. Qed.

Lemma compile_text : forall ss p, wf_path ss -> Compile ss = OK p ->
  exists ws, listed [] (list_path 0 ss) ws (consts p) /\
    Program_String F p = Some (spaced (map (const_text F) (consts p) ++ ws)).
Proof.
  intros ss p Hwf Hc. destruct (compile_listed ss p Hwf Hc) as (ws & Hl & Hd). exists ws. split; [exact Hl|].
  unfold Program_String. rewrite vals_String_spaced, (orders_String_spaced _ _ Hd). f_equal. fold (consts p).
  destruct (p_vals p) as [|c cs] eqn:Ep; [unfold consts; rewrite Ep; reflexivity|].
  assert (Hw : ws <> []).
  { intros ->. apply listed_length in Hl as Hn. destruct (list_path 0 ss); [|discriminate].
    apply listed_empty in Hl. unfold consts in Hl. rewrite Ep in Hl. discriminate. }
  rewrite spaced_app; [rewrite <- app_assoc; reflexivity| |exact Hw].
  unfold consts. rewrite Ep. discriminate.
Qed.
End text.

(** ** One listing *)
Lemma nth_shared : forall t v, shared v = true -> NoDup (filter shared t) -> forall j k,
  nth_error t j = Some v -> nth_error t k = Some v -> j = k.
Proof.
  intros t v Hv. induction t as [|x t IH]; intros Hn j k Hj Hk; [destruct j; discriminate|].
  assert (Hin : forall i, nth_error t i = Some v -> In v (filter shared t)).
  { intros i Hi. apply filter_In. split; [eapply nth_error_In; eauto|exact Hv]. }
  assert (Hn' : NoDup (filter shared t)) by (cbn [filter] in Hn; destruct (shared x); [inversion Hn; assumption|assumption]).
  destruct j as [|j], k as [|k]; cbn [nth_error] in Hj, Hk; auto.
  - injection Hj as ->. cbn [filter] in Hn. rewrite Hv in Hn. inversion Hn; subst. exfalso. eauto.
  - injection Hk as ->. cbn [filter] in Hn. rewrite Hv in Hn. inversion Hn; subst. exfalso. eauto.
Qed.

Lemma nodup_more : forall t v, NoDup (filter shared t) -> (shared v = true -> ~ In v t) -> NoDup (filter shared (t ++ [v])).
Proof.
  intros t v Hn Hv. rewrite filter_app. cbn [filter]. destruct (shared v); [|rewrite app_nil_r; exact Hn].
  apply (NoDup_Add (a := v) (l := filter shared t)); [rewrite <- (app_nil_r (filter shared t)) at 1; apply Add_app|].
  split; auto. intro Hin. apply filter_In in Hin as [Hin _]. apply Hv; auto.
Qed.

Lemma listed_fun : forall t is ws t', listed t is ws t' -> NoDup (filter shared t) ->
  forall ws2 t2, listed t is ws2 t2 -> ws2 = ws /\ t2 = t'.
Proof.
  intros t is ws t' H. induction H as [t|t i is ws t' Hi H IH|t v k is ws t' Ht Hs Hk H IH|t v is ws t' Ht Hs H IH];
    intros Hn ws2 t2 H2; inversion H2; subst; auto;
    try (match goal with H : needs_entry (ILoad _) = false |- _ => cbn [needs_entry] in H; congruence end).
  - match goal with K : listed t is _ _ |- _ => destruct (IH Hn _ _ K) as [-> ->] end. auto.
  - match goal with K : nth_error t _ = Some v, L : listed t is _ _ |- _ =>
      rewrite (nth_shared _ _ Hs Hn _ _ Hk K); destruct (IH Hn _ _ L) as [-> ->] end. auto.
  - exfalso. match goal with K : _ -> ~ In v t |- _ => apply K; auto end. eapply nth_error_In; eauto.
  - exfalso. apply Hs; auto. eapply nth_error_In; eauto.
  - match goal with K : listed (t ++ [v]) is _ _ |- _ => destruct (IH (nodup_more _ _ Hn Hs) _ _ K) as [-> ->] end. auto.
Qed.

(** ** Results about texts *)
From Verif Require Import SpecGrammar Api SpecText TextProofs.

Lemma listing_of : forall TX s ss jp, accepted TX s ss jp -> forall F r,
  Program_String F (jp_prog jp) = Some r <->
  exists ws t, listed [] (list_path 0 ss) ws t /\ r = spaced (map (const_text F) t ++ ws).
Proof.
  intros TX s ss jp Ha F r. pose proof (text_wf _ _ _ _ Ha) as Hwf. pose proof (text_compile _ _ _ _ Ha) as Hc.
  destruct (compile_text F ss _ Hwf Hc) as (ws & Hl & E). split.
  - intro H. rewrite E in H. injection H as <-. exists ws, (consts (jp_prog jp)). auto.
  - intros (ws' & t' & Hl' & ->). destruct (listed_fun _ _ _ _ Hl (NoDup_nil _) _ _ Hl') as [-> ->]. exact E.
Qed.

Lemma listing_total : forall TX s ss jp, accepted TX s ss jp -> forall F, exists r,
  Program_String F (jp_prog jp) = Some r.
Proof.
  intros TX s ss jp Ha F. pose proof (text_wf _ _ _ _ Ha) as Hwf. pose proof (text_compile _ _ _ _ Ha) as Hc.
  destruct (compile_text F ss _ Hwf Hc) as (ws & Hl & E). eauto.
Qed.

Lemma trimOp_none : forall n, trimOp n = None <-> op_of_num n = None.
Proof.
  intro n. unfold trimOp, num_GoString. destruct (op_of_num n) as [o|]; [|split; reflexivity].
  split; [|discriminate]. destruct o; discriminate.
Qed.

Lemma order_String_none : forall sb ord, order_String sb ord = None <-> op_of_num (order_op ord) = None.
Proof.
  intros sb ord. unfold order_String. destruct (trimOp (order_op ord)) as [name|] eqn:E.
  - destruct (op_of_num (order_op ord)) as [o|]; [|split; reflexivity]. split; [|discriminate]. intro H. exfalso.
    destruct (op_is_leaf o); [destruct (negb (op_has_val o)); [discriminate|]|].
    + unfold order_index in H. destruct (order_is_small ord); discriminate.
    + destruct (order_is_small ord && negb (order_small_int ord =? 0)); discriminate.
  - apply trimOp_none in E. split; auto.
Qed.

Lemma orders_String_none : forall ords sb i, orders_String sb i ords = None <->
  exists ord, In ord ords /\ op_of_num (order_op ord) = None.
Proof.
  induction ords as [|o ords IH]; intros sb i; cbn [orders_String]; cbv zeta.
  - split; [discriminate|]. intros (ord & [] & _).
  - match goal with |- context [order_String ?x o] => generalize x end. intro x.
    destruct (order_String x o) as [sb'|] eqn:E.
    + rewrite IH. split.
      * intros (ord & Hin & Ho). exists ord. simpl. auto.
      * intros (ord & [<-|Hin] & Ho); [|eauto]. apply (order_String_none x) in Ho. congruence.
    + apply order_String_none in E. split; [intros _; exists o; simpl; auto|auto].
Qed.

Lemma listing_panics : forall F p, Program_String F p = None <->
  exists ord, In ord (p_orders p) /\ op_of_num (order_op ord) = None.
Proof. intros F p. unfold Program_String. apply orders_String_none. Qed.

From Verif Require Import SpecDoc Examples.
Lemma listing_ambiguous : exists s s' ss ss' jp jp' W root, accepted x_text s ss jp /\ accepted x_text s' ss' jp' /\
  doc root /\ (forall F, Program_String F (jp_prog jp) = Program_String F (jp_prog jp')) /\
  JP_Eval W 0 jp root (OK [VInt64 2]) /\ JP_Eval W 0 jp' root (OK [VInt64 1; VInt64 2]).
Proof.
  exists (b_of "$[1:]"), (b_of "$[(1):]"). do 2 eexists. exists (jp_of (b_of "$[1:]")), (jp_of (b_of "$[(1):]")), x_world, (VArr [VInt64 1; VInt64 2]).
  split; [apply acceptedb_ok; vm_compute; reflexivity|]. split; [apply acceptedb_ok; vm_compute; reflexivity|].
  split; [apply docb_doc; reflexivity|]. split; [intro F; vm_compute; reflexivity|].
  split; (split; [discriminate|]; exists 100%nat; vm_compute; reflexivity).
Qed.
