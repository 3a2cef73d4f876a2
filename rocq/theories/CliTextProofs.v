(** Proofs about jpath's messages, and about the messages of run-time errors. *)
From Verif Require Import Syntax Machine SpecDoc SpecRun SpecExpr SpecSem SpecText SpecMessages Messages MessageProofs ErrorProofs
  Cli SpecCli CliText SpecCliText CliProofs Examples.
Local Open Scope Z_scope.

(** ** Run-time errors *)
Lemma table_apart : forall f n f' n', In (f, n) function_table -> In (f', n') function_table ->
  (String.eqb f f' && match n, n' with Some a, Some b => Nat.eqb a b | None, None => true | _, _ => false end) ||
  apart (b_of f ++ b_of ": ") (b_of f' ++ b_of ": ") = true.
Proof.
  assert (H : forallb (fun a => forallb (fun b =>
    (String.eqb (fst a) (fst b) && match snd a, snd b with Some x, Some y => Nat.eqb x y | None, None => true | _, _ => false end) ||
    apart (b_of (fst a) ++ b_of ": ") (b_of (fst b) ++ b_of ": ")) function_table) function_table = true) by (vm_compute; reflexivity).
  intros f n f' n' Hf Hf'. rewrite forallb_forall in H. apply H in Hf. rewrite forallb_forall in Hf. exact (Hf _ Hf').
Qed.

Definition words : list bytes := map b_of
  ["call of unknown function: "; "error parsing regexp: "; "~ requires string or /re/ right operand, not ";
   "~ requires string left operand, not "; "in requires array right operand, not "; "nin requires array right operand, not "]%string.

Lemma table_words : forall f n w, In (f, n) function_table -> In w words -> apart (b_of f ++ b_of ": ") w = true.
Proof.
  intros f n w Hf Hw.
  assert (H : forallb (fun a => forallb (fun w => apart (b_of (fst a) ++ b_of ": ") w) words) function_table = true) by (vm_compute; reflexivity).
  rewrite forallb_forall in H. apply H in Hf. rewrite forallb_forall in Hf. exact (Hf _ Hw).
Qed.

Section causes.
Variable G : messages.
Hypothesis HG : forall p, exists x, mg_regexp G p = b_of "error parsing regexp: " ++ x.

(** an error, the words its text begins with, and the rest *)
Inductive worded : rerr -> bytes -> bytes -> Prop :=
| WoName : forall id, worded (RNoFunction id) (b_of "call of unknown function: ") id
| WoRegexp : forall p y, mg_regexp G p = b_of "error parsing regexp: " ++ y -> worded (RBadRegexp p) (b_of "error parsing regexp: ") y
| WoRight : forall v, worded (RMatchRight v) (b_of "~ requires string or /re/ right operand, not ") (mg_value G v)
| WoLeft : forall v, worded (RMatchLeft v) (b_of "~ requires string left operand, not ") (mg_string G v)
| WoIn : forall v, worded (RInRight false v) (b_of "in requires array right operand, not ") (mg_string G v)
| WoNin : forall v, worded (RInRight true v) (b_of "nin requires array right operand, not ") (mg_string G v).

Lemma worded_words : forall e w y, worded e w y -> In w words /\ rerr_Error G e = w ++ y.
Proof. intros e w y H. destruct H; (split; [cbn; tauto|]); try reflexivity. exact H. Qed.

Lemma worded_apart : forall e w y e' w' y', worded e w y -> worded e' w' y' -> w ++ y = w' ++ y' -> same_failure G e e'.
Proof.
  intros e w y e' w' y' H H' E. destruct H, H';
    try (exfalso; eapply apart_ne; [|exact E]; vm_compute; reflexivity); try (apply app_inv_head in E; constructor; congruence).
  apply app_inv_head in E. subst id0. constructor.
Qed.

(** the text of an error, with its first words *)
Lemma rerr_words : forall W root dot x e, blames W root dot x e ->
  (exists f n k y, e = RArgCount (b_of f) (Z.of_nat n) k /\ In (f, Some n) function_table /\
     rerr_Error G e = (b_of f ++ b_of ": ") ++ y /\ y = b_of "wrong argument count: need " ++ sprint_int (Z.of_nat n) ++ b_of ", got " ++ sprint_int k) \/
  (exists w y, worded e w y).
Proof.
  intros W root dot x e H. destruct H as [id args Hn|f n args Hf Hl|a b pat _ _|a b v _ _ _ _|a b v _ _ _|a b v _ _ _|a b v _ _ _];
    try (right; eexists _, _; constructor; fail).
  - left. exists f, n, (Z.of_nat (length args)). eexists. split; [reflexivity|]. split; [exact Hf|]. split; [|reflexivity].
    cbn [rerr_Error]. change (b_of ": wrong argument count: need ") with (b_of ": " ++ b_of "wrong argument count: need ").
    rewrite <- !app_assoc. reflexivity.
  - right. destruct (HG pat) as [y Hy]. eexists _, _. constructor. exact Hy.
Qed.

Lemma blames_apart : forall W root dot x e W' root' dot' x' e', blames W root dot x e -> blames W' root' dot' x' e' ->
  rerr_Error G e = rerr_Error G e' -> same_failure G e e'.
Proof.
  intros W root dot x e W' root' dot' x' e' H H' E.
  destruct (rerr_words _ _ _ _ _ H) as [(f & n & k & y & -> & Hf & Ey & Hy)|(w & y & D)];
    destruct (rerr_words _ _ _ _ _ H') as [(f' & n' & k' & y' & -> & Hf' & Ey' & Hy')|(w' & y' & D')].
  - rewrite Ey, Ey' in E. pose proof (table_apart _ _ _ _ Hf Hf') as Q. apply orb_prop in Q as [Q|Q]; [|exfalso; eapply apart_ne; eauto].
    apply andb_prop in Q as [Q1 Q2]. apply String.eqb_eq in Q1. apply Nat.eqb_eq in Q2. subst f' n'.
    apply app_inv_head in E. rewrite Hy, Hy', !app_assoc in E. apply app_inv_head in E. apply sprint_int_inj in E. rewrite E. constructor.
  - exfalso. destruct (worded_words _ _ _ D') as [Hw Ew]. rewrite Ey, Ew in E. eapply apart_ne; [|exact E]. eapply table_words; eauto.
  - exfalso. destruct (worded_words _ _ _ D) as [Hw Ew]. rewrite Ey', Ew in E. symmetry in E. eapply apart_ne; [|exact E]. eapply table_words; eauto.
  - destruct (worded_words _ _ _ D) as [_ Ew], (worded_words _ _ _ D') as [_ Ew']. rewrite Ew, Ew' in E. eapply worded_apart; eauto.
Qed.
End causes.

Lemma eval_cause : forall F G TX s ss jp s' ss' jp' W W' t t' root root' e e', plain_texts F G TX ->
  accepted TX s ss jp -> fits jp -> orders_ok W -> doc root -> JP_Eval W t jp root (Fail e) ->
  accepted TX s' ss' jp' -> fits jp' -> orders_ok W' -> doc root' -> JP_Eval W' t' jp' root' (Fail e') ->
  rerr_Error G e = rerr_Error G e' -> same_failure G e e'.
Proof.
  intros F G TX s ss jp s' ss' jp' W W' t t' root root' e e' [_ HG] Ha Hf HW Hd He Ha' Hf' HW' Hd' He' E.
  destruct (text_blame _ _ _ _ _ _ _ _ Ha Hf HW Hd He) as (x & dot & _ & _ & H).
  destruct (text_blame _ _ _ _ _ _ _ _ Ha' Hf' HW' Hd' He') as (x' & dot' & _ & _ & H').
  eapply blames_apart; eauto.
Qed.

(** ** jpath *)
Lemma newlines_app : forall a b, newlines (a ++ b) = newlines a + newlines b.
Proof. induction a as [|c a IH]; intro b; [reflexivity|]. cbn [app newlines]. rewrite IH. lia. Qed.
Lemma newlines_none : forall a, ~ In 10 a -> newlines a = 0.
Proof.
  induction a as [|c a IH]; intro H; [reflexivity|]. cbn [newlines]. destruct (Z.eqb_spec c 10) as [->|_]; [exfalso; apply H; left; reflexivity|].
  rewrite IH; [reflexivity|]. intro Hi. apply H. right. exact Hi.
Qed.
Lemma newlines_lines : forall outs, Forall (fun o => ~ In 10 o) outs -> newlines (concat (map (fun o => o ++ [10]) outs)) = Z.of_nat (length outs).
Proof.
  induction outs as [|o outs IH]; intro H; [reflexivity|]. apply Forall_cons_iff in H as [Ho H]. cbn [map concat length].
  rewrite !newlines_app, (newlines_none o Ho), IH by exact H. cbn [newlines]. change (10 =? 10) with true. cbn iota. lia.
Qed.

Lemma stderr_silent : forall F G name line e, jpath_stderr F G name line e = Some [] <-> exit_status e = 0.
Proof.
  intros F G name line e. destruct e as [|f|]; [cbn; tauto| |cbn; split; discriminate].
  destruct f; cbn [jpath_stderr exit_status]; (split; [|discriminate]); intro H; injection H as H; exfalso; destruct name; discriminate.
Qed.

Lemma text_lines_end : forall bad s ls q, text_lines bad s ls q ->
  (q = EDone /\ bad = None) \/ exists m, q = EFault (RRead m) /\ (bad = Some m \/ m = b_of "bufio.Scanner: token too long").
Proof.
  intros bad s ls q H. induction H as [e [[-> ->]|(m & -> & ->)]| |l l' e H1 H2 H3 H4 [[-> ->]|(m & -> & ->)]|]; eauto.
Qed.

Lemma stderr_line : forall F G name L W T p open stdin jp fuel n out f, advances L -> one_line L -> JP_Compile (w_text W) p = OK jp ->
  jpath L W T fuel n true [p] open stdin = Some (out, EFault f) -> exists reason,
  jpath_stderr F G name true (EFault f) = Some (name ++ b_of ": " ++ sprint_int (newlines out + 1) ++ b_of ": " ++ reason ++ [10]) \/
  (jpath_stderr F G name true (EFault f) = Some (name ++ b_of ": read error: " ++ reason ++ [10]) /\
   (in_bad stdin = Some reason \/ reason = b_of "bufio.Scanner: token too long")).
Proof.
  intros F G name L W T p open stdin jp fuel n out f HL H1 Hp H.
  destruct (lines_unique (in_bad stdin) (in_text stdin)) as (ls & q & Hls & _).
  destruct (jpath_lines _ _ _ _ _ _ _ _ _ _ _ _ _ HL H1 Hp H Hls) as (outs & -> & Ho & _ & D).
  rewrite newlines_lines by exact Ho. rewrite (Z.add_comm _ 1). destruct D as [[_ E]|(l & _ & D)].
  - destruct (text_lines_end _ _ _ _ Hls) as [[-> _]|(m & -> & Hm)]; [discriminate|]. cbn [blame] in E. injection E as ->.
    exists m. right. split; [reflexivity|exact Hm].
  - assert (K : exists r reason, f = FStdin r /\ rfault_Error G true r = sprint_int (1 + Z.of_nat (length outs)) ++ b_of ": " ++ reason).
    { destruct D as [(msg & _ & E)|(v & e' & _ & S & E)].
      - injection E as ->. eexists _, (b_of "decoding JSON: " ++ msg). split; reflexivity.
      - destruct S as [(err & _ & ->)|[(_ & ->)|(r & msg & _ & _ & ->)]]; cbn [blame] in E; [|discriminate|]; injection E as ->.
        + eexists _, (b_of "evaluation error: " ++ rerr_Error G err). split; reflexivity.
        + eexists _, (b_of "encoding results: " ++ msg). split; reflexivity. }
    destruct K as (r & reason & -> & K). exists reason. left. cbn [jpath_stderr fault_Error]. rewrite K, <- !app_assoc. reflexivity.
Qed.

Lemma writes_fault : forall L W T jp line open files k out f, writes L W T jp line k (map (fun f => (Some f, open f)) files) out (EFault f) ->
  exists pre file post, files = pre ++ file :: post /\ served L W T jp line k (map (fun f => (Some f, open f)) pre) /\
    ~ served L W T jp line k (map (fun f => (Some f, open f)) (pre ++ [file])) /\
    ((exists msg, f = FOpen file msg) \/ exists r, f = FFile file r).
Proof.
  intros L W T jp line open files. induction files as [|f0 files IH]; intros k out f H; cbn [map] in H; [inversion H|].
  destruct (open f0) as [s|msg] eqn:Eo.
  - apply write_inv in H as [(docs & o1 & o2 & Hd & Hr & Hw & ->)|(docs & after & e' & Hd & Hr & Hn & E)].
    + apply IH in Hw as (pre & file & post & -> & H1 & H2 & H3). exists (f0 :: pre), file, post. split; [reflexivity|].
      split; [|split; [|exact H3]].
      * cbn [map]. rewrite Eo. eapply SvFile; [exact Hd|eapply responds_served; exact Hr|exact H1].
      * cbn [map app]. rewrite Eo. intro S. inversion S; subst.
        match goal with A : documents L line s ?d EDone |- _ => destruct (documents_fun _ _ _ _ _ _ _ Hd A) as [-> _] end. auto.
    + exists [], f0, files. split; [reflexivity|]. split; [constructor|]. split.
      * cbn [map app]. rewrite Eo. intro S. inversion S; subst.
        match goal with A : documents L line s ?d EDone |- _ => destruct (documents_fun _ _ _ _ _ _ _ Hd A) as [-> E1]; rewrite <- E1 in * end.
        match goal with A : forall i p v, _ |- _ => apply served_responds in A as [o A]; destruct (responds_fun _ _ _ _ _ _ _ _ _ _ Hr _ _ A) as [_ E2] end.
        congruence.
      * destruct e' as [|r|]; [contradiction| |discriminate]. cbn [blame] in E. injection E as ->. right. eauto.
  - inversion H; subst. exists [], f0, files. split; [reflexivity|]. split; [constructor|]. split; [|left; eauto].
    cbn [map app]. rewrite Eo. intro S. inversion S.
Qed.

Lemma stderr_file : forall F G name L W T line p files open stdin jp fuel n out f, advances L -> JP_Compile (w_text W) p = OK jp -> files <> [] ->
  jpath L W T fuel n line (p :: files) open stdin = Some (out, EFault f) -> exists pre file post reason,
  files = pre ++ file :: post /\
  served L W T jp line 0 (map (fun f => (Some f, open f)) pre) /\ ~ served L W T jp line 0 (map (fun f => (Some f, open f)) (pre ++ [file])) /\
  jpath_stderr F G name line (EFault f) = Some (name ++ b_of ": " ++ file ++ b_of ":" ++ reason ++ [10]).
Proof.
  intros F G name L W T line p files open stdin jp fuel n out f HL Hp Hne H.
  assert (Hw : writes L W T jp line 0 (inputs open stdin files) out (EFault f)) by (eapply jpath_exact; eauto).
  assert (Ei : inputs open stdin files = map (fun f => (Some f, open f)) files) by (destruct files; [contradiction|reflexivity]).
  rewrite Ei in Hw. apply writes_fault in Hw as (pre & file & post & -> & H1 & H2 & H3).
  destruct H3 as [[msg ->]|[r ->]].
  - exists pre, file, post, (b_of " cannot open: " ++ msg). split; [reflexivity|]. split; [exact H1|]. split; [exact H2|].
    cbn [jpath_stderr fault_Error]. rewrite <- !app_assoc. reflexivity.
  - exists pre, file, post, (rfault_Error G line r). split; [reflexivity|]. split; [exact H1|]. split; [exact H2|].
    cbn [jpath_stderr fault_Error]. rewrite <- !app_assoc. reflexivity.
Qed.

(** *** Messages tell reasons apart *)
Lemma before_colon : forall f f' x y, ~ In 58 f -> ~ In 58 f' -> f ++ 58 :: x = f' ++ 58 :: y -> f = f' /\ x = y.
Proof.
  induction f as [|c f IH]; intros [|c' f'] x y Hf Hf' E; cbn [app] in E.
  - injection E as ->. auto.
  - injection E as <- _. exfalso. apply Hf'. left. reflexivity.
  - injection E as -> _. exfalso. apply Hf. left. reflexivity.
  - injection E as -> E. destruct (IH f' x y) as [-> ->]; auto; intro K; [apply Hf|apply Hf']; right; exact K.
Qed.

Lemma place_app : forall line a b x y, no_digit x -> no_digit y -> place line a ++ x = place line b ++ y -> a = b /\ x = y.
Proof.
  intros line a b x y Hx Hy E. unfold place in E. rewrite <- !app_assoc in E. apply app_inv_head in E. apply sprint_int_app; assumption.
Qed.

Lemma sprint_int_first : forall a x, exists c r, sprint_int a ++ x = c :: r /\ c < 58.
Proof.
  intros a x. unfold sprint_int. destruct (a <? 0).
  - eexists _, _. split; [reflexivity|lia].
  - pose proof (DecimalN.Unsigned.of_to (Z.to_N a)) as K. destruct (N.to_uint (Z.to_N a)) eqn:E; cbn; try (do 2 eexists; split; [reflexivity|lia]).
    exfalso. destruct (Z.to_N a); [discriminate E|]. revert E. apply DecimalPos.Unsigned.to_uint_nonnil.
Qed.

Lemma place_first : forall line a x, exists c r, place line a ++ x = c :: r /\ c < 58 /\ c <> 32.
Proof.
  intros line a x. unfold place. destruct line; [|eexists _, _; split; [reflexivity|split; vm_compute; [reflexivity|discriminate]]].
  destruct (sprint_int_first a x) as (c & r & E & Hc). exists c, r. split; [exact E|]. split; [exact Hc|].
  pose proof (sprint_int_solid a) as S. cbn [app] in *. destruct (sprint_int a) as [|d t] eqn:Ed.
  - destruct (sprint_int_first a []) as (c' & r' & E' & _). rewrite Ed in E'. discriminate.
  - injection E as <- _. inversion S; subst. assumption.
Qed.

Definition stage (r : rfault) : bytes :=
  match r with RDecode _ _ => b_of ": decoding JSON: " | REval _ _ => b_of ": evaluation error: " | REncode _ _ => b_of ": encoding results: " | RRead _ => [] end.

Lemma trouble_apart : forall G line r r', rfault_Error G line r ++ [10] = rfault_Error G line r' ++ [10] -> same_trouble G r r'.
Proof.
  intros G line r r' E. apply app_inv_tail in E.
  assert (R : forall a x m, place line a ++ x = b_of "read error: " ++ m -> False).
  { intros a x m K. destruct (place_first line a x) as (c & t & Ec & Hc & _). rewrite Ec in K. injection K as -> _. lia. }
  destruct r, r'; cbn [rfault_Error] in E; try (exfalso; eapply R; eauto; fail); try (exfalso; symmetry in E; eapply R; eauto; fail);
    try (apply place_app in E as [-> E]; [|cbn; lia|cbn; lia];
         (exfalso; eapply apart_ne; [|exact E]; vm_compute; reflexivity) || (apply app_inv_head in E; try subst; constructor; assumption) || (apply app_inv_head in E; subst; constructor)).
  apply app_inv_head in E. subst. constructor.
Qed.

Lemma trouble_space : forall G line r c, exists d t, rfault_Error G line r ++ c = d :: t /\ d <> 32.
Proof.
  intros G line r c. destruct r; cbn [rfault_Error]; rewrite <- ?app_assoc;
    try (match goal with |- exists d t, place ?l ?a ++ ?x = _ /\ _ => destruct (place_first l a x) as (d & t & E & _ & H); exists d, t; auto end).
  eexists _, _. split; [reflexivity|vm_compute; discriminate].
Qed.

Lemma stderr_tells : forall F G name line p files TX jp, Forall (fun f => ~ In 58 f) files -> JP_Compile TX p = OK jp ->
  forall L W T open stdin fuel n out e L' W' T' open' stdin' fuel' n' out' e', advances L -> advances L' -> w_text W = TX -> w_text W' = TX ->
  jpath L W T fuel n line (p :: files) open stdin = Some (out, e) ->
  jpath L' W' T' fuel' n' line (p :: files) open' stdin' = Some (out', e') ->
  e <> EPanic -> jpath_stderr F G name line e = jpath_stderr F G name line e' -> same_end G e e'.
Proof.
  intros F G name line p files TX jp Hfs Hp L W T open stdin fuel n out e L' W' T' open' stdin' fuel' n' out' e' HL HL' HW HW' H H' Hnp E.
  assert (C : forall L W T open stdin fuel n out e, advances L -> w_text W = TX -> jpath L W T fuel n line (p :: files) open stdin = Some (out, e) ->
    e = EDone \/ e = EPanic \/ (files = [] /\ exists r, e = EFault (FStdin r)) \/
    (files <> [] /\ exists file, In file files /\ ((exists msg, e = EFault (FOpen file msg)) \/ exists r, e = EFault (FFile file r)))).
  { clear - Hp. intros L W T open stdin fuel n out e HL HW H.
    assert (Hw : writes L W T jp line 0 (inputs open stdin files) out e) by (eapply jpath_exact; [exact HL|rewrite HW; exact Hp|eauto]).
    destruct e as [|f|]; auto. right. right. destruct files as [|f0 files'].
    - left. split; [reflexivity|]. cbn [inputs] in Hw. inversion Hw as [| |? ? ? ? ? ? ? ? _ _ K| | |]; subst; [inversion K|eauto].
    - right. split; [discriminate|]. cbn [inputs] in Hw. apply writes_fault in Hw as (pre & file & post & Ef & _ & _ & D).
      exists file. split; [rewrite Ef; apply in_or_app; right; left; reflexivity|]. destruct D as [[m ->]|[r ->]]; [left|right]; eauto. }
  apply C in H; [|exact HL|exact HW]. apply C in H'; [|exact HL'|exact HW']. clear C. rewrite Forall_forall in Hfs.
  assert (Q : forall f, exit_status (EFault f) <> 0) by (intros []; discriminate).
  assert (N : forall e1 e2, jpath_stderr F G name line e1 = jpath_stderr F G name line e2 -> e1 = EDone -> exit_status e2 = 0).
  { intros e1 e2 K ->. apply (stderr_silent F G name line). symmetry. exact K. }
  destruct H as [->|[->|[(Hn & r & ->)|(Hn & file & Hi & D)]]]; [|contradiction| |].
  - pose proof (N _ _ E eq_refl) as K. destruct e' as [|f'|]; [constructor|exfalso; exact (Q _ K)|discriminate K].
  - destruct H' as [->|[->|[(Hn' & r' & ->)|(Hn' & file' & Hi' & D')]]]; [|discriminate E| |contradiction].
    + exfalso. symmetry in E. exact (Q _ (N _ _ E eq_refl)).
    + cbn [jpath_stderr fault_Error] in E.
      apply (f_equal (fun o => match o with Some x => x | None => [] end)) in E. apply app_inv_head in E. apply app_inv_head in E.
      constructor. eapply trouble_apart; exact E.
  - destruct H' as [->|[->|[(Hn' & r' & ->)|(Hn' & file' & Hi' & D')]]]; [| |contradiction|].
    + exfalso. symmetry in E. destruct D as [[m ->]|[r ->]]; exact (Q _ (N _ _ E eq_refl)).
    + destruct D as [[m ->]|[r ->]]; discriminate E.
    + apply Hfs in Hi. apply Hfs in Hi'.
      destruct D as [[m ->]|[r ->]], D' as [[m' ->]|[r' ->]]; cbn [jpath_stderr fault_Error] in E;
        apply (f_equal (fun o => match o with Some x => x | None => [] end)) in E; apply app_inv_head in E; apply app_inv_head in E;
        rewrite <- !app_assoc in E.
      * change (b_of ": cannot open: " ++ ?x) with (58 :: b_of " cannot open: " ++ x) in E. apply before_colon in E as [-> E]; try assumption.
        apply app_inv_head in E. apply app_inv_tail in E. subst m'. constructor.
      * exfalso. change (b_of ": cannot open: " ++ ?x) with (58 :: b_of " cannot open: " ++ x) in E. change (b_of ":" ++ ?x) with (58 :: x) in E.
        apply before_colon in E as [-> E]; try assumption.
        destruct (trouble_space G line r' [10]) as (d & t & Et & Hd). rewrite Et in E. injection E as E _. congruence.
      * exfalso. change (b_of ": cannot open: " ++ ?x) with (58 :: b_of " cannot open: " ++ x) in E. change (b_of ":" ++ ?x) with (58 :: x) in E.
        apply before_colon in E as [-> E]; try assumption.
        destruct (trouble_space G line r [10]) as (d & t & Et & Hd). rewrite Et in E. injection E as E _. congruence.
      * change (b_of ":" ++ ?x) with (58 :: x) in E. apply before_colon in E as [-> E]; try assumption. constructor. eapply trouble_apart; exact E.
Qed.

Lemma colon_refuted : exists F G name line p files L W T open open' stdin fuel n f f' m m', advances L /\ f <> f' /\
  jpath L W T fuel n line (p :: files) open stdin = Some ([], EFault (FOpen f m)) /\
  jpath L W T fuel n line (p :: files) open' stdin = Some ([], EFault (FOpen f' m')) /\
  jpath_stderr F G name line (EFault (FOpen f m)) = jpath_stderr F G name line (EFault (FOpen f' m')).
Proof.
  exists (mkPrinters (fun s => s) (fun _ => [])), (mkMessages (fun s => s) (fun _ => []) (fun _ => []) (fun _ => true)), (b_of "jpath"), false,
    (b_of "$"), [b_of "f"; b_of "f: cannot open: g"], x_lib, x_world, (fun k => k),
    (fun _ => Lost (b_of "g: cannot open: no such file")),
    (fun f => if beqb f (b_of "f") then Got (mkInput [] None) else Lost (b_of "no such file")), (mkInput [] None), 20%nat, 5%nat,
    (b_of "f"), (b_of "f: cannot open: g"), (b_of "g: cannot open: no such file"), (b_of "no such file").
  split; [apply x_lib_advances|]. split; [discriminate|]. repeat split; vm_compute; reflexivity.
Qed.
