(** The arguments of jpath are read as specified. *)
From Verif Require Import SpecGrammar Parser ParserExact Flags SpecFlags.
Local Open Scope Z_scope.

Lemma beqb_is : forall a b, beqb a b = true -> a = b.
Proof.
  induction a as [|x a IH]; intros [|y b] H; try discriminate H; [reflexivity|].
  cbn in H. apply andb_prop in H. destruct H as [H1 H2]. apply Z.eqb_eq in H1. rewrite (IH b H2), H1. reflexivity.
Qed.

Lemma parse_bool_says : forall v b, parse_bool v = Some b -> exists w, v = b_of w /\ In (w, b) truths.
Proof.
  intros v b H. unfold parse_bool in H.
  destruct (existsb (fun w => beqb v (b_of w)) ["1"; "t"; "T"; "TRUE"; "true"; "True"]%string) eqn:E.
  - injection H as <-. apply existsb_exists in E. destruct E as [w [Hw E]]. apply beqb_is in E. exists w. split; [exact E|].
    cbn in Hw. repeat (destruct Hw as [<-|Hw]; [cbn; tauto|]). destruct Hw.
  - destruct (existsb (fun w => beqb v (b_of w)) ["0"; "f"; "F"; "FALSE"; "false"; "False"]%string) eqn:E2; [|discriminate H].
    injection H as <-. apply existsb_exists in E2. destruct E2 as [w [Hw E2]]. apply beqb_is in E2. exists w. split; [exact E2|].
    cbn in Hw. repeat (destruct Hw as [<-|Hw]; [cbn; tauto|]). destruct Hw.
Qed.

Lemma cut_value_eq : forall s n v, cut_value s = (n, v) -> s = n ++ match v with Some w => 61 :: w | None => [] end.
Proof.
  induction s as [|c s IH]; intros n v H; cbn in H.
  - injection H as <- <-. reflexivity.
  - destruct (c =? 61) eqn:E.
    + injection H as <- <-. apply Z.eqb_eq in E. subst. reflexivity.
    + destruct (cut_value s) as [n' v'] eqn:K. injection H as <- <-. cbn. f_equal. apply IH. reflexivity.
Qed.

Lemma named_says : forall s b, named_flag s = AFlag b ->
  (s = b_of "l" /\ b = true) \/ exists w, s = b_of "l=" ++ b_of w /\ In (w, b) truths.
Proof.
  intros s b H. unfold named_flag in H. destruct s as [|c r]; [discriminate H|].
  destruct ((c =? 45) || (c =? 61)); [discriminate H|]. destruct (cut_value (c :: r)) as [n v] eqn:K.
  apply cut_value_eq in K. destruct (beqb n (b_of "l")) eqn:E.
  - apply beqb_is in E. subst n. destruct v as [v|].
    + destruct (parse_bool v) as [b'|] eqn:P; [|discriminate H]. injection H as ->. right.
      apply parse_bool_says in P. destruct P as [w [-> Hw]]. exists w. auto.
    + injection H as <-. left. auto.
  - destruct (beqb n (b_of "help") || beqb n (b_of "h")); discriminate H.
Qed.

Lemma flag_says : forall s b, parse_one s = AFlag b -> says s b.
Proof.
  intros s b H. unfold parse_one in H. destruct s as [|d [|c r]]; try discriminate H.
  destruct (d =? 45) eqn:D; [|discriminate H]. apply Z.eqb_eq in D. subst d.
  assert (K : forall d u, dashes d -> named_flag u = AFlag b -> says (d ++ u) b).
  { intros d u Hd Hu. apply named_says in Hu. destruct Hu as [[-> ->]|[w [-> Hw]]]; [apply SaOn; exact Hd|apply SaSet; auto]. }
  destruct (c =? 45) eqn:E.
  - apply Z.eqb_eq in E. subst c. destruct r as [|x r]; [discriminate H|].
    apply (K (b_of "--") (x :: r)); [right; reflexivity|exact H].
  - apply (K (b_of "-") (c :: r)); [left; reflexivity|exact H].
Qed.

Lemma says_flag : forall s b, says s b -> parse_one s = AFlag b.
Proof.
  intros s b H. destruct H as [d [->| ->]|d v b [->| ->] H]; try reflexivity;
    cbn in H; repeat (destruct H as [H|H]; [injection H as <- <-; reflexivity|]); destruct H.
Qed.

Lemma operand_iff : forall s, parse_one s = AOperand <-> operand_arg s.
Proof.
  intro s. unfold operand_arg. split.
  - intro H. destruct s as [|d [|c r]].
    + right. discriminate.
    + destruct (Z.eq_dec d 45) as [->|N]; [left; reflexivity|right; intros r E; injection E as E; auto].
    + unfold parse_one in H. destruct (d =? 45) eqn:D.
      * exfalso. assert (N : forall u, named_flag u <> AOperand).
        { intros [|x u]; cbn [named_flag]; [discriminate|]. destruct ((x =? 45) || (x =? 61)); [discriminate|].
          destruct (cut_value (x :: u)) as [n [v|]]; destruct (beqb n (b_of "l")); try discriminate;
            try (destruct (parse_bool v); discriminate); destruct (beqb n (b_of "help") || beqb n (b_of "h")); discriminate. }
        destruct (c =? 45); [destruct r; [discriminate H|exact (N _ H)]|exact (N _ H)].
      * right. intros r' E. injection E as E _. subst. discriminate D.
  - intros [->|H]; [reflexivity|]. destruct s as [|d [|c r]]; try reflexivity. unfold parse_one.
    destruct (d =? 45) eqn:D; [|reflexivity]. apply Z.eqb_eq in D. subst. exfalso. exact (H (c :: r) eq_refl).
Qed.

Lemma terminator_is : forall s, parse_one s = ATerminator -> s = b_of "--".
Proof.
  intros s H. destruct s as [|d [|c r]]; try discriminate H. unfold parse_one in H. destruct (d =? 45) eqn:D; [|discriminate H].
  assert (N : forall u, named_flag u <> ATerminator).
  { intros [|x u]; cbn [named_flag]; [discriminate|]. destruct ((x =? 45) || (x =? 61)); [discriminate|].
    destruct (cut_value (x :: u)) as [n [v|]]; destruct (beqb n (b_of "l")); try discriminate;
      try (destruct (parse_bool v); discriminate); destruct (beqb n (b_of "help") || beqb n (b_of "h")); discriminate. }
  destruct (c =? 45) eqn:E; [|destruct (N _ H)]. destruct r; [|destruct (N _ H)].
  apply Z.eqb_eq in D, E. subst. reflexivity.
Qed.

Lemma last_cons : forall A (b : A) bs d, last (b :: bs) d = last bs b.
Proof.
  intros A b bs. revert b. induction bs as [|c bs IH]; intros b d; [reflexivity|].
  change (last (b :: c :: bs) d) with (last (c :: bs) d). rewrite (IH c d), (IH c b). reflexivity.
Qed.

Lemma parse_flags : forall fs bs, Forall2 says fs bs -> forall line tail, flag_parse line (fs ++ tail) = flag_parse (last bs line) tail.
Proof.
  induction 1 as [|f b fs bs Hf _ IH]; intros line tail; [reflexivity|].
  cbn [app flag_parse]. rewrite (says_flag f b Hf), IH, last_cons. reflexivity.
Qed.

(** with a flag that is [line] at first *)
Lemma parse_gives : forall args line l rest, flag_parse line args = PRest l rest ->
  exists fs bs, Forall2 says fs bs /\ l = last bs line /\
    ((args = fs ++ rest /\ match rest with [] => True | p :: _ => operand_arg p end) \/ args = fs ++ b_of "--" :: rest).
Proof.
  induction args as [|s r IH]; intros line l rest H; cbn [flag_parse] in H.
  - injection H as <- <-. exists [], []. repeat split; auto.
  - destruct (parse_one s) as [| |b| |] eqn:E; try discriminate H.
    + injection H as <- <-. exists [], []. repeat split; auto. left. split; [reflexivity|]. apply operand_iff. exact E.
    + injection H as <- <-. exists [], []. apply terminator_is in E. subst. repeat split; auto.
    + destruct (IH b l rest H) as (fs & bs & H1 & H2 & H3). exists (s :: fs), (b :: bs).
      split; [constructor; [apply flag_says; exact E|exact H1]|]. split; [rewrite last_cons; exact H2|].
      destruct H3 as [[-> H3]| ->]; [left|right]; auto.
Qed.

Lemma args_exact : forall args line rest, flag_parse false args = PRest line rest <-> command args line rest.
Proof.
  intros args line rest. split.
  - intro H. destruct (parse_gives args false line rest H) as (fs & bs & H1 & -> & [[-> H3]| ->]).
    + exact (CoPlain fs bs rest H1 H3).
    + exact (CoMarked fs bs rest H1).
  - intro H. destruct H as [fs bs rest H1 H3|fs bs rest H1]; rewrite (parse_flags fs bs H1).
    + destruct rest as [|p rest]; [reflexivity|]. cbn [flag_parse]. apply operand_iff in H3. rewrite H3. reflexivity.
    + reflexivity.
Qed.

Lemma main_exact : forall L W T fuel n args open stdin r, jpath_main L W T fuel n args open stdin = Some r <->
  exists line rest, command args line rest /\ r = jpath L W T fuel n line rest open stdin.
Proof.
  intros L W T fuel n args open stdin r. unfold jpath_main. split.
  - intro H. destruct (flag_parse false args) as [line rest| |] eqn:E; try discriminate H. injection H as <-.
    exists line, rest. split; [apply args_exact; exact E|reflexivity].
  - intros (line & rest & H & ->). apply args_exact in H. rewrite H. reflexivity.
Qed.

Lemma command_unique : forall args l r l' r', command args l r -> command args l' r' -> l = l' /\ r = r'.
Proof. intros args l r l' r' H H'. apply args_exact in H, H'. rewrite H in H'. injection H' as -> ->. auto. Qed.

Lemma path_no_dash : forall TX s jp, is_bytes s -> JP_Compile TX s = OK jp -> operand_arg s.
Proof.
  intros TX s jp Hs H. right. intros r ->. unfold JP_Compile in H.
  destruct (ParsePath TX (45 :: r)) as [ss| | |] eqn:E; try discriminate H.
  apply (path_exact TX (45 :: r) Hs) in E. destruct E as (m & E & _). unfold ppunct in E.
  inversion E as [w s t q Hw Ht Es| | |]; subst. destruct w as [|c w].
  - cbn in Es. inversion Ht; subst. discriminate.
  - injection Es as -> _. apply Forall_inv in Hw. unfold space in Hw. lia.
Qed.

Lemma path_given : forall TX p jp fs bs files, is_bytes p -> JP_Compile TX p = OK jp -> Forall2 says fs bs ->
  command (fs ++ p :: files) (last_of bs) (p :: files).
Proof. intros TX p jp fs bs files Hp H Hf. apply CoPlain; [exact Hf|]. eapply path_no_dash; eauto. Qed.

Lemma main_refuses : forall L W T fuel n args open stdin, jpath_main L W T fuel n args open stdin = None <->
  forall line rest, ~ command args line rest.
Proof.
  intros L W T fuel n args open stdin. unfold jpath_main. split.
  - intros H line rest K. apply args_exact in K. rewrite K in H. discriminate H.
  - intro H. destruct (flag_parse false args) as [line rest| |] eqn:E; try reflexivity.
    destruct (H line rest). apply args_exact. exact E.
Qed.

Lemma flag_late : forall s files, operand_arg s -> command (s :: b_of "-l" :: files) false (s :: b_of "-l" :: files).
Proof. intros s files H. exact (CoPlain [] [] (s :: b_of "-l" :: files) (Forall2_nil _) H). Qed.

(** ** Help *)
Lemma named_helps : forall u, named_flag u = AHelp -> exists n, (n = b_of "h" \/ n = b_of "help") /\ (u = n \/ exists v, u = n ++ b_of "=" ++ v).
Proof.
  intros [|c r] H; [discriminate H|]. unfold named_flag in H. destruct ((c =? 45) || (c =? 61)); [discriminate H|].
  destruct (cut_value (c :: r)) as [n v] eqn:K. apply cut_value_eq in K. rewrite K. destruct (beqb n (b_of "l")).
  - destruct v as [v|]; [destruct (parse_bool v); discriminate H|discriminate H].
  - destruct (beqb n (b_of "help") || beqb n (b_of "h")) eqn:E; [|discriminate H]. exists n. split.
    + apply orb_prop in E as [E|E]; apply beqb_is in E; auto.
    + destruct v as [v|]; [right; exists v; reflexivity|left; apply app_nil_r].
Qed.
Lemma help_iff : forall s, parse_one s = AHelp <-> helps s.
Proof.
  intro s. split.
  - intro H. unfold parse_one in H. destruct s as [|d [|c r]]; try discriminate H.
    destruct (d =? 45) eqn:D; [|discriminate H]. apply Z.eqb_eq in D. subst d.
    assert (K : forall d u, dashes d -> named_flag u = AHelp -> helps (d ++ u)).
    { intros d u Hd Hu. apply named_helps in Hu as (n & Hn & [->|(v & ->)]); [apply HpBare; auto|apply HpValue; auto]. }
    destruct (c =? 45) eqn:E.
    + apply Z.eqb_eq in E. subst c. destruct r as [|x r]; [discriminate H|]. apply (K (b_of "--") (x :: r)); [right; reflexivity|exact H].
    + apply (K (b_of "-") (c :: r)); [left; reflexivity|exact H].
  - intros [d n [->| ->] [->| ->]|d n v [->| ->] [->| ->]]; reflexivity.
Qed.
Lemma help_exact : forall args, flag_parse false args = PHelped <-> exists fs bs h rest, args = fs ++ h :: rest /\ Forall2 says fs bs /\ helps h.
Proof.
  intro args. split.
  - generalize false. induction args as [|s r IH]; intros line H; cbn [flag_parse] in H; [discriminate H|].
    destruct (parse_one s) as [| |b| |] eqn:E; try discriminate H.
    + destruct (IH b H) as (fs & bs & h & rest & -> & F & Hh). exists (s :: fs), (b :: bs), h, rest.
      split; [reflexivity|]. split; [constructor; [apply flag_says; exact E|exact F]|exact Hh].
    + exists [], [], s, r. split; [reflexivity|]. split; [constructor|apply help_iff; exact E].
  - intros (fs & bs & h & rest & -> & F & Hh). rewrite (parse_flags fs bs F). cbn [flag_parse]. apply help_iff in Hh. rewrite Hh. reflexivity.
Qed.
