(** Proofs about the interface and the command. *)
From Coq Require Import Permutation.
From Verif Require Import SpecSelect SpecText SpecSyntax SpecGrammar SpecText SpecDoc DocProofs SpecRun ProgramProofs EvalProofs TextProofs SpecCode CodeProofs TableProofs ParserProofs ParserSound ParserExact Cli SpecCli Examples.
Local Open Scope Z_scope.

(** ** Fuel *)
Lemma run_loop_more : forall n W p root m, run_loop n W p root m <> OutOfFuel ->
  forall d, run_loop (n + d) W p root m = run_loop n W p root m.
Proof.
  induction n as [|n IH]; intros W p root m H d.
  - destruct d as [|d]; [reflexivity|]. cbn [run_loop Nat.add] in *. destruct (m_pc m <? prog_size p); [contradiction|reflexivity].
  - cbn [run_loop Nat.add] in *. destruct (m_pc m <? prog_size p); [|reflexivity].
    destruct (index_Z (p_orders p) (m_pc m)) as [ord|]; [|reflexivity].
    destruct (exec W p root ord (set_pc m (m_pc m + 1))) as [m'| | |]; cbn [obind] in *; try reflexivity.
    apply IH. exact H.
Qed.

Lemma run_go_more : forall n W t p root, Run_go n W t p root <> OutOfFuel -> forall d, Run_go (n + d) W t p root = Run_go n W t p root.
Proof.
  intros n W t p root H d. unfold Run_go in *. rewrite run_loop_more; [reflexivity|].
  intro E. rewrite E in H. contradiction.
Qed.

Lemma eval_run : forall W t jp v r, JP_Eval W t jp v r -> exists n, forall d,
  Run_go (n + d) W t (jp_prog jp) v =
  match r with OK l => OK (Some l, None) | Fail e => OK (None, Some e) | Panics => Panics | OutOfFuel => OutOfFuel end.
Proof.
  intros W t jp v r [Hr [n Hn]]. exists n. intro d.
  assert (E : Run_go n W t (jp_prog jp) v =
    match r with OK l => OK (Some l, None) | Fail e => OK (None, Some e) | Panics => Panics | OutOfFuel => OutOfFuel end).
  { unfold Run, Run_go in *. destruct (run_loop n W (jp_prog jp) v (m_init t v)) as [m| | |]; cbn [obind] in Hn; subst r; try reflexivity.
    destruct (m_out m); reflexivity. }
  rewrite run_go_more; [exact E|]. rewrite E. destruct r; congruence.
Qed.

Lemma run_eval : forall n W t jp v,
  match Run_go n W t (jp_prog jp) v with
  | OK (Some l, None) => JP_Eval W t jp v (OK l)
  | OK (None, Some e) => JP_Eval W t jp v (Fail e)
  | OK _ => False
  | Fail _ => False
  | Panics => JP_Eval W t jp v Panics
  | OutOfFuel => True
  end.
Proof.
  intros n W t jp v. unfold Run_go, JP_Eval, Run.
  destruct (run_loop n W (jp_prog jp) v (m_init t v)) as [m|e| |] eqn:E; try exact I.
  - destruct (m_out m) eqn:Eo; (split; [discriminate|]; exists n; rewrite E; cbn [obind]; rewrite Eo; reflexivity).
  - split; [discriminate|]. exists n. rewrite E. reflexivity.
  - split; [discriminate|]. exists n. rewrite E. reflexivity.
Qed.

(** ** Lines *)
Lemma split_line_spec : forall s n, 0 <= n ->
  match split_line n s with
  | Some (l, r) => s = l ++ 10 :: r /\ ~ In 10 l /\ Z.of_nat (length l) < n
  | None => ~ In 10 (firstn (Z.to_nat n) s)
  end.
Proof.
  induction s as [|c s IH]; intros n Hn; cbn [split_line]; [rewrite firstn_nil; intros []|].
  destruct (Z.leb_spec n 0) as [H0|H0]; [replace n with 0 by lia; intros []|].
  replace (Z.to_nat n) with (S (Z.to_nat (n - 1))) by lia. cbn [firstn].
  destruct (Z.eqb_spec c 10) as [->|Hc].
  - split; [reflexivity|]. split; [intros []|cbn; lia].
  - specialize (IH (n - 1)). destruct (split_line (n - 1) s) as [[l r]|].
    + destruct IH as (-> & H1 & H2); [lia|]. split; [reflexivity|]. split; [|cbn [length]; lia]. intros [H|H]; [congruence|contradiction].
    + intros [H|H]; [congruence|]. apply IH in H; [exact H|lia].
Qed.

Lemma drop_cr_trimmed : forall l, trimmed l (drop_cr l).
Proof.
  intro l. destruct l as [|c l _] using rev_ind.
  - apply TmOther. intros r H. symmetry in H. apply app_eq_nil in H as [_ H]. discriminate.
  - assert (E : drop_cr (l ++ [c]) = if c =? 13 then l else l ++ [c]).
    { induction l as [|d l IH]; [cbn [app drop_cr]; destruct (c =? 13); reflexivity|].
      cbn [app drop_cr]. destruct (l ++ [c]) as [|x y] eqn:Ex; [symmetry in Ex; apply app_cons_not_nil in Ex; contradiction|].
      rewrite IH. destruct (c =? 13); reflexivity. }
    rewrite E. destruct (Z.eqb_spec c 13) as [->|Hc]; [apply TmCR|]. apply TmOther. intros r H.
    apply app_inj_tail in H as [_ H]. contradiction.
Qed.

Lemma trimmed_fun : forall l a b, trimmed l a -> trimmed l b -> a = b.
Proof.
  intros l a b H H'. inversion H as [r|? Hn]; subst; inversion H' as [r' Er|? Hn']; subst; try reflexivity.
  - apply app_inj_tail in Er as [Er _]. congruence.
  - exfalso. exact (Hn' a eq_refl).
  - exfalso. exact (Hn b eq_refl).
Qed.

Lemma scan_spec : forall s,
  match scan s with
  | SLine l' r => exists l, trimmed l l' /\ ~ In 10 l /\ Z.of_nat (length l) < 65536 /\
      (s = l ++ 10 :: r \/ (s = l /\ l <> [] /\ r = []))
  | SEof => s = []
  | STooLong => exists l r, s = l ++ r /\ ~ In 10 l /\ Z.of_nat (length l) = 65536
  end.
Proof.
  intro s. unfold scan, max_line. pose proof (split_line_spec s 65536 ltac:(lia)) as H.
  destruct (split_line 65536 s) as [[l r]|].
  - destruct H as (-> & H1 & H2). exists l. split; [apply drop_cr_trimmed|]. split; [exact H1|]. split; [lia|]. left. reflexivity.
  - destruct (65536 <=? Z.of_nat (length s)) eqn:El.
    + revert H. generalize (eq_refl (Z.to_nat 65536)). generalize (Z.to_nat 65536) at 2 3. intros k Hk H.
      exists (firstn k s), (skipn k s). split; [symmetry; apply firstn_skipn|]. split; [exact H|].
      rewrite firstn_length. lia.
    + destruct s as [|c s]; [reflexivity|]. exists (c :: s). split; [apply drop_cr_trimmed|].
      rewrite firstn_all2 in H by lia. split; [exact H|]. split; [lia|]. right. split; [reflexivity|]. split; [discriminate|reflexivity].
Qed.

(** how a line is found *)
Inductive cut : bytes -> scanned -> Prop :=
| CuLine : forall l l' r, ~ In 10 l -> Z.of_nat (length l) < 65536 -> trimmed l l' -> cut (l ++ 10 :: r) (SLine l' r)
| CuLast : forall l l', ~ In 10 l -> Z.of_nat (length l) < 65536 -> trimmed l l' -> l <> [] -> cut l (SLine l' [])
| CuEnd : cut [] SEof
| CuLong : forall l r, ~ In 10 l -> Z.of_nat (length l) = 65536 -> cut (l ++ r) STooLong.

Lemma scan_cut : forall s, cut s (scan s).
Proof.
  intro s. pose proof (scan_spec s) as H. destruct (scan s) as [l' r| |].
  - destruct H as (l & H1 & H2 & H3 & [->|(-> & H4 & ->)]); constructor; assumption.
  - subst s. constructor.
  - destruct H as (l & r & -> & H1 & H2). constructor; assumption.
Qed.

Lemma first_newline : forall l l' r r', ~ In 10 l -> ~ In 10 l' -> l ++ 10 :: r = l' ++ 10 :: r' -> l = l' /\ r = r'.
Proof.
  induction l as [|c l IH]; intros l' r r' H H' E; destruct l' as [|c' l']; cbn [app] in E.
  - injection E as <-. auto.
  - injection E as E1 E2. exfalso. apply H'. left. congruence.
  - injection E as E1 E2. exfalso. apply H. left. congruence.
  - injection E as <- E. destruct (IH l' r r') as [-> ->]; auto; intro Hi; [apply H|apply H']; right; exact Hi.
Qed.

Lemma newline_in : forall l r (a b : bytes), ~ In 10 a -> l ++ 10 :: r = a ++ b -> (length l < length a)%nat -> False.
Proof.
  intros l r a b Ha E Hl. apply Ha.
  assert (Hn : nth_error (a ++ b) (length l) = Some 10).
  { rewrite <- E. rewrite nth_error_app2 by lia. rewrite Nat.sub_diag. reflexivity. }
  rewrite nth_error_app1 in Hn by exact Hl. eapply nth_error_In; exact Hn.
Qed.

Lemma cut_fun : forall s a b, cut s a -> cut s b -> a = b.
Proof.
  intros s a b Ha. destruct Ha as [l l' r H1 H2 H3|l l' H1 H2 H3 H4| |l r H1 H2]; intro Hb;
    inversion Hb as [m m' q G1 G2 G3 E|m m' G1 G2 G3 G4 E|E|m q G1 G2 E]; subst; try reflexivity.
  - apply first_newline in E as [-> ->]; auto. f_equal. eapply trimmed_fun; eauto.
  - exfalso. apply G1. apply in_or_app. right. left. reflexivity.
  - destruct l; discriminate.
  - exfalso. symmetry in E. eapply newline_in; [exact G1|exact E|lia].
  - exfalso. apply H1. apply in_or_app. right. left. reflexivity.
  - f_equal. eapply trimmed_fun; eauto.
  - exfalso. apply H4. reflexivity.
  - rewrite app_length in H2. lia.
  - destruct m; discriminate.
  - exfalso. apply G4. reflexivity.
  - apply app_eq_nil in E as [-> ->]. discriminate.
  - exfalso. eapply newline_in; [exact H1|exact E|lia].
  - exfalso. rewrite app_length in G2. lia.
  - destruct l; [discriminate|discriminate E].
Qed.

Section loops.
Variable L : jsonlib.
Variable W : world.
Variable T : nat -> nat.
Variable jp : JSONPath.

Lemma answer_more : forall fuel line k p v r, answer L W T jp fuel line k p v = Some r ->
  forall d, answer L W T jp (fuel + d) line k p v = Some r.
Proof.
  intros fuel line k p v r H d. unfold answer in *.
  rewrite run_go_more; [exact H|]. intro E. rewrite E in H. discriminate.
Qed.

(** [answers]: what [answer] means *)
Inductive answers (line : bool) (k : nat) (p : Z) (v : val) : bytes -> ended rfault -> Prop :=
| AnOK : forall l b, JP_Eval W (T k) jp v (OK l) -> j_encode L line (Some l) = Got b -> answers line k p v b EDone
| AnError : forall err, JP_Eval W (T k) jp v (Fail err) -> answers line k p v [] (EFault (REval p err))
| AnPanic : JP_Eval W (T k) jp v Panics -> answers line k p v [] EPanic
| AnEncode : forall l msg, JP_Eval W (T k) jp v (OK l) -> j_encode L line (Some l) = Lost msg -> answers line k p v [] (EFault (REncode p msg)).

Lemma answer_answers : forall fuel line k p v b e, answer L W T jp fuel line k p v = Some (b, e) -> answers line k p v b e.
Proof.
  intros fuel line k p v b e H. unfold answer in H. pose proof (run_eval fuel W (T k) jp v) as HE.
  destruct (Run_go fuel W (T k) (jp_prog jp) v) as [[[l|] [err|]]|[]| |]; try contradiction; try discriminate.
  - destruct (j_encode L line (Some l)) eqn:E; injection H as <- <-; [eapply AnOK; eauto|eapply AnEncode; eauto].
  - injection H as <- <-. apply AnError. exact HE.
  - injection H as <- <-. apply AnPanic. exact HE.
Qed.

Lemma answers_answer : forall line k p v b e, answers line k p v b e -> exists fuel, forall d, answer L W T jp (fuel + d) line k p v = Some (b, e).
Proof.
  intros line k p v b e H. destruct H as [l b H E|err H|H|l msg H E]; apply eval_run in H as [n H]; exists n; intro d;
    unfold answer; rewrite H; [rewrite E|..]; try reflexivity. rewrite E. reflexivity.
Qed.

Lemma responds_answers : forall line after k p v docs out e, responds L W T jp line after k ((p, v) :: docs) out e <->
  (exists b out', out = b ++ out' /\ answers line k p v b EDone /\ responds L W T jp line after (S k) docs out' e) \/
  (answers line k p v out e /\ e <> EDone).
Proof.
  intros line after k p v docs out e. split.
  - intro H. inversion H; subst.
    + left. exists b, out0. split; [reflexivity|]. split; [eapply AnOK; eauto|assumption].
    + right. split; [apply AnError; assumption|discriminate].
    + right. split; [apply AnPanic; assumption|discriminate].
    + right. split; [eapply AnEncode; eauto|discriminate].
  - intros [(b & out' & -> & A & R)|[A Hn]].
    + inversion A; subst. eapply RsAnswer; eauto.
    + inversion A; subst; [contradiction|apply RsError; assumption|apply RsPanic; assumption|eapply RsEncode; eauto].
Qed.

(** *** Values *)
Hypothesis HL : advances L.

Lemma values_sound : forall bad fuel n k off s out k' e, readValues L W T jp fuel n k off s bad = Some (out, k', e) ->
  exists docs after, stream L bad off s docs after /\ responds L W T jp false after k docs out e /\
    (e = EDone -> after = EDone /\ k' = (k + length docs)%nat).
Proof.
  intros bad fuel. induction n as [|n IH]; intros k off s out k' e H; [discriminate|]. cbn [readValues] in H.
  destruct (j_decode L (mkInput s bad)) as [v c| |msg] eqn:Ed.
  - pose proof (HL _ _ _ _ Ed) as Hc.
    assert (Es : s = firstn c s ++ skipn c s) by (symmetry; apply firstn_skipn).
    assert (Elen : length (firstn c s) = c) by (rewrite firstn_length; lia).
    assert (Hst : forall docs after, stream L bad (off + Z.of_nat c) (skipn c s) docs after -> stream L bad off s ((off, v) :: docs) after).
    { intros docs after Hs. rewrite Es. apply StMore; [intro E0; rewrite E0 in Elen; cbn in Elen; lia| |rewrite Elen; exact Hs].
      rewrite <- Es, Elen. exact Ed. }
    assert (Hsome : exists docs after, stream L bad (off + Z.of_nat c) (skipn c s) docs after).
    { clear - HL. remember (length (skipn c s)) as m eqn:Em. assert (Hm : (length (skipn c s) <= m)%nat) by lia. clear Em.
      generalize (off + Z.of_nat c). revert Hm. generalize (skipn c s). induction m as [|m IHm]; intros q Hq z.
      - destruct q; [|cbn in Hq; lia]. destruct (j_decode L (mkInput [] bad)) as [v' c'| |msg] eqn:E.
        + apply HL in E. cbn in E. lia.
        + exists [], EDone. constructor. exact E.
        + exists [], (EFault (RDecode z msg)). constructor. exact E.
      - destruct (j_decode L (mkInput q bad)) as [v' c'| |msg] eqn:E.
        + pose proof (HL _ _ _ _ E) as Hc'. destruct (IHm (skipn c' q)) with (z := z + Z.of_nat c') as (docs & after & Hd).
          { rewrite skipn_length. lia. }
          exists ((z, v') :: docs), after.
          assert (El : length (firstn c' q) = c') by (rewrite firstn_length; lia).
          rewrite <- (firstn_skipn c' q). apply StMore; [intro E0; rewrite E0 in El; cbn in El; lia|rewrite firstn_skipn, El; exact E|rewrite El; exact Hd].
        + exists [], EDone. constructor. exact E.
        + exists [], (EFault (RDecode z msg)). constructor. exact E. }
    destruct (answer L W T jp fuel false k off v) as [[b e']|] eqn:Ea; [|discriminate]. apply answer_answers in Ea.
    assert (Hstop : e' <> EDone -> Some (b, S k, e') = Some (out, k', e) -> exists docs after, stream L bad off s docs after /\
      responds L W T jp false after k docs out e /\ (e = EDone -> after = EDone /\ k' = (k + length docs)%nat)).
    { intros Hn Hq. injection Hq as -> <- ->. destruct Hsome as (docs & after & Hd). exists ((off, v) :: docs), after.
      split; [apply Hst; exact Hd|]. split; [apply responds_answers; right; auto|intros ->; contradiction]. }
    destruct e'; try (apply Hstop; [discriminate|exact H]).
    destruct (readValues L W T jp fuel n (S k) (off + Z.of_nat c) (skipn c s) bad) as [[[r k1] e1]|] eqn:Er; [|discriminate].
    injection H as <- <- <-. apply IH in Er as (docs & after & Hd & Hr & Hk).
    exists ((off, v) :: docs), after. split; [apply Hst; exact Hd|]. split.
    + apply responds_answers. left. eauto.
    + intro He. destruct (Hk He) as [-> ->]. split; [reflexivity|]. cbn [length]. lia.
  - injection H as <- <- <-. exists [], EDone. split; [constructor; exact Ed|]. split; [constructor|]. intros _. split; [reflexivity|cbn; lia].
  - injection H as <- <- <-. exists [], (EFault (RDecode off msg)). split; [constructor; exact Ed|]. split; [constructor|discriminate].
Qed.

Lemma values_complete : forall bad off s docs after, stream L bad off s docs after -> forall k out e,
  responds L W T jp false after k docs out e ->
  exists fuel n k', (e = EDone -> k' = (k + length docs)%nat) /\
    forall d d', readValues L W T jp (fuel + d) (n + d') k off s bad = Some (out, k', e).
Proof.
  intros bad off s docs after Hs. induction Hs as [off s Ed|off s msg Ed|off a s v docs after Ha Ed Hs IH]; intros k out e Hr.
  - inversion Hr; subst. exists 0%nat, 1%nat, k. split; [cbn; lia|]. intros d d'. cbn [readValues Nat.add]. rewrite Ed. reflexivity.
  - inversion Hr; subst. exists 0%nat, 1%nat, k. split; [cbn; lia|]. intros d d'. cbn [readValues Nat.add]. rewrite Ed. reflexivity.
  - apply responds_answers in Hr as [(b & out' & -> & A & R)|[A Hn]].
    + apply answers_answer in A as [f1 A]. apply IH in R as (f2 & n & k' & Hk & R).
      exists (f1 + f2)%nat, (S n), k'. split; [intro He; rewrite (Hk He); cbn; lia|]. intros d d'. cbn [readValues Nat.add].
      rewrite Ed. rewrite <- Nat.add_assoc. rewrite A. rewrite skipn_app, skipn_all, Nat.sub_diag. cbn [skipn app].
      replace (f1 + (f2 + d))%nat with (f2 + (f1 + d))%nat by lia. rewrite R. reflexivity.
    + apply answers_answer in A as [f1 A]. exists f1, 1%nat, (S k). split; [intro He; contradiction|].
      intros d d'. cbn [readValues Nat.add]. rewrite Ed, A. destruct e; [contradiction|reflexivity|reflexivity].
Qed.

(** *** Lines *)
Lemma scan_ends : forall bad, at_end bad (scan_end bad).
Proof. intros [msg|]; [right; eauto|left; auto]. Qed.
Lemma ends_scan : forall bad e, at_end bad e -> e = scan_end bad.
Proof. intros bad e [[-> ->]|(msg & -> & ->)]; reflexivity. Qed.
Lemma ends : forall bad, exists e, at_end bad e.
Proof. intro bad. eexists. apply scan_ends. Qed.

Lemma cut_lines : forall bad s, exists ls e, text_lines bad s ls e.
Proof.
  intros bad s. remember (length s) as m eqn:Em. assert (Hm : (length s <= m)%nat) by lia. clear Em. revert s Hm.
  induction m as [|m IH]; intros s Hm.
  - destruct s; [|cbn in Hm; lia]. destruct (ends bad) as [e He]. exists [], e. constructor. exact He.
  - destruct (scan_cut s) as [l l' r H1 H2 H3|l l' H1 H2 H3 H4| |l r H1 H2].
    + destruct (IH r) as (ls & e & H); [rewrite app_length in Hm; cbn in Hm; lia|]. exists (l' :: ls), e. constructor; assumption.
    + destruct (ends bad) as [e He]. exists [l'], e. constructor; assumption.
    + destruct (ends bad) as [e He]. exists [], e. constructor. exact He.
    + exists [], (EFault (RRead too_long)). constructor; assumption.
Qed.

Lemma no_lines : forall bad ls q, text_lines bad [] ls q -> ls = [] /\ at_end bad q.
Proof.
  intros bad ls q H. inversion H as [e He|l l' s ls' e H1 H2 H3 H4 E|l l' e H1 H2 H3 H4 H5 E|l s H1 H2 E]; subst.
  - auto.
  - destruct l; discriminate.
  - contradiction.
  - destruct l; [cbn in H2; lia|discriminate].
Qed.

Lemma line_docs_total : forall after ls n, exists docs e, line_docs L after n ls docs e.
Proof.
  intros after ls. induction ls as [|l ls IH]; intro n; [exists [], after; constructor|].
  destruct (j_unmarshal L l) as [v|msg] eqn:E.
  - destruct (IH (n + 1)) as (docs & e & H). exists ((n, v) :: docs), e. constructor; assumption.
  - exists [], (EFault (RDecode n msg)). constructor. exact E.
Qed.

Lemma lines_sound : forall bad fuel n k lno s out k' e, readLines L W T jp fuel n k lno s bad = Some (out, k', e) ->
  exists ls q docs after, text_lines bad s ls q /\ line_docs L q lno ls docs after /\ responds L W T jp true after k docs out e /\
    (e = EDone -> after = EDone /\ k' = (k + length docs)%nat).
Proof.
  intros bad fuel. induction n as [|n IH]; intros k lno s out k' e H; [discriminate|]. cbn [readLines] in H.
  pose proof (scan_cut s) as Hc. destruct (scan s) as [l' rest| |] eqn:Es.
  - assert (Hst : forall ls q, text_lines bad rest ls q -> exists ls' q', text_lines bad s (l' :: ls') q' /\ (ls' = ls /\ q' = q)).
    { intros ls q Hl. exists ls, q. split; [|auto]. inversion Hc; subst; [constructor; assumption|].
      apply no_lines in Hl as [-> Hl]. constructor; assumption. }
    destruct (j_unmarshal L l') as [v|msg] eqn:Eu.
    + destruct (answer L W T jp fuel true k lno v) as [[b e']|] eqn:Ea; [|discriminate]. apply answer_answers in Ea.
      assert (Hstop : e' <> EDone -> Some (b, S k, e') = Some (out, k', e) -> exists ls q docs after, text_lines bad s ls q /\
        line_docs L q lno ls docs after /\ responds L W T jp true after k docs out e /\ (e = EDone -> after = EDone /\ k' = (k + length docs)%nat)).
      { intros Hn Hq. injection Hq as -> <- ->. destruct (cut_lines bad rest) as (ls & q & Hl). destruct (Hst _ _ Hl) as (ls' & q' & Ht & -> & ->).
        destruct (line_docs_total q ls (lno + 1)) as (docs & after & Hd). exists (l' :: ls), q, ((lno, v) :: docs), after.
        split; [exact Ht|]. split; [constructor; assumption|]. split; [apply responds_answers; right; auto|intros ->; contradiction]. }
      destruct e';
      try (apply Hstop; [discriminate|exact H]).
      destruct (readLines L W T jp fuel n (S k) (lno + 1) rest bad) as [[[r k1] e1]|] eqn:Er; [|discriminate].
      injection H as <- <- <-. apply IH in Er as (ls & q & docs & after & Hl & Hd & Hr & Hk).
      destruct (Hst _ _ Hl) as (ls' & q' & Ht & -> & ->).
      exists (l' :: ls), q, ((lno, v) :: docs), after. split; [exact Ht|]. split; [constructor; assumption|]. split.
      * apply responds_answers. left. eauto.
      * intro He. destruct (Hk He) as [-> ->]. split; [reflexivity|]. cbn [length]. lia.
    + injection H as <- <- <-. destruct (cut_lines bad rest) as (ls & q & Hl). destruct (Hst _ _ Hl) as (ls' & q' & Ht & -> & ->).
      exists (l' :: ls), q, [], (EFault (RDecode lno msg)). split; [exact Ht|]. split; [constructor; exact Eu|]. split; [constructor|discriminate].
  - injection H as <- <- <-. inversion Hc; subst. exists [], (scan_end bad), [], (scan_end bad). split; [constructor; apply scan_ends|]. split; [constructor|].
    split; [constructor|]. intros He. split; [exact He|cbn; lia].
  - injection H as <- <- <-. inversion Hc; subst. exists [], (EFault (RRead too_long)), [], (EFault (RRead too_long)).
    split; [constructor; assumption|]. split; [constructor|]. split; [constructor|discriminate].
Qed.

Lemma lines_scan : forall bad s ls q, text_lines bad s ls q ->
  match ls with
  | [] => (scan s = SEof /\ q = scan_end bad) \/ (scan s = STooLong /\ q = EFault (RRead too_long))
  | l :: ls' => exists rest, scan s = SLine l rest /\ text_lines bad rest ls' q /\ (length rest < length s)%nat
  end.
Proof.
  intros bad s ls q H. pose proof (scan_cut s) as Hc. destruct H as [e He|l l' s ls q H1 H2 H3 H4|l l' e H1 H2 H3 H4 He|l s H1 H2].
  - left. split; [|apply ends_scan; exact He]. eapply cut_fun; [exact Hc|constructor].
  - exists s. split; [eapply cut_fun; [exact Hc|constructor; assumption]|]. split; [exact H4|]. rewrite app_length. cbn. lia.
  - exists []. split; [eapply cut_fun; [exact Hc|constructor; assumption]|]. split; [constructor; exact He|]. destruct l; [contradiction|cbn; lia].
  - right. split; [|reflexivity]. eapply cut_fun; [exact Hc|constructor; assumption].
Qed.

Lemma lines_complete : forall bad ls s q, text_lines bad s ls q -> forall lno docs after, line_docs L q lno ls docs after -> forall k out e,
  responds L W T jp true after k docs out e ->
  exists fuel n k', (e = EDone -> k' = (k + length docs)%nat) /\
    forall d d', readLines L W T jp (fuel + d) (n + d') k lno s bad = Some (out, k', e).
Proof.
  intro bad. induction ls as [|l ls IH]; intros s q Hs lno docs after Hd k out e Hr; apply lines_scan in Hs.
  - inversion Hd; subst. inversion Hr; subst. exists 0%nat, 1%nat, k. split; [cbn; lia|]. intros d d'. cbn [readLines Nat.add].
    destruct Hs as [[Es ->]|[Es ->]]; rewrite Es; reflexivity.
  - destruct Hs as (rest & Es & Hs & _). inversion Hd as [|? ? ? msg Eu|? ? ? v docs' ? Eu Hd']; subst.
    + inversion Hr; subst. exists 0%nat, 1%nat, k. split; [cbn; lia|]. intros d d'. cbn [readLines Nat.add]. rewrite Es, Eu. reflexivity.
    + apply responds_answers in Hr as [(b & out' & -> & A & R)|[A Hn]].
      * apply answers_answer in A as [f1 A]. destruct (IH _ _ Hs _ _ _ Hd' _ _ _ R) as (f2 & n & k' & Hk & R').
        exists (f1 + f2)%nat, (S n), k'. split; [intro He; rewrite (Hk He); cbn; lia|]. intros d d'. cbn [readLines Nat.add].
        rewrite Es, Eu. rewrite <- Nat.add_assoc. rewrite A.
        replace (f1 + (f2 + d))%nat with (f2 + (f1 + d))%nat by lia. rewrite R'. reflexivity.
      * apply answers_answer in A as [f1 A]. exists f1, 1%nat, (S k). split; [intro He; contradiction|].
        intros d d'. cbn [readLines Nat.add]. rewrite Es, Eu, A. destruct e; [contradiction|reflexivity|reflexivity].
Qed.

(** *** Files *)
Lemma reader_sound : forall line fuel n k s out k' e, reader L W T jp fuel line n k s = Some (out, k', e) ->
  exists docs after, documents L line s docs after /\ responds L W T jp line after k docs out e /\
    (e = EDone -> after = EDone /\ k' = (k + length docs)%nat).
Proof.
  intros line fuel n k s out k' e H. unfold reader in H. destruct line; cbn [documents].
  - apply lines_sound in H as (ls & q & docs & after & H1 & H2 & H3). exists docs, after. split; [exists ls, q; auto|auto].
  - apply values_sound in H as (docs & after & H1 & H2). exists docs, after. auto.
Qed.

Lemma reader_complete : forall line s docs after, documents L line s docs after -> forall k out e,
  responds L W T jp line after k docs out e ->
  exists fuel n k', (e = EDone -> k' = (k + length docs)%nat) /\
    forall d d', reader L W T jp (fuel + d) line (n + d') k s = Some (out, k', e).
Proof.
  intros line s docs after Hd k out e Hr. unfold reader. destruct line; cbn [documents] in Hd.
  - destruct Hd as (ls & q & H1 & H2). eapply lines_complete; eauto.
  - eapply values_complete; eauto.
Qed.

(** the constructors of [writes] for a reader that fails, as one *)
Lemma write_stop : forall line k f s files docs after out e, documents L line s docs after ->
  responds L W T jp line after k docs out e -> e <> EDone -> writes L W T jp line k ((f, Got s) :: files) out (blame f e).
Proof.
  intros line k f s files docs after out e Hd Hr Hn. destruct e as [|r|]; [contradiction| |eapply WrPanic; eauto].
  destruct f as [f|]; [eapply WrStop; eauto|eapply WrStdin; eauto].
Qed.
Lemma write_inv : forall line k f s files out e, writes L W T jp line k ((f, Got s) :: files) out e ->
  (exists docs out1 out2, documents L line s docs EDone /\ responds L W T jp line EDone k docs out1 EDone /\
     writes L W T jp line (k + length docs) files out2 e /\ out = out1 ++ out2) \/
  (exists docs after e', documents L line s docs after /\ responds L W T jp line after k docs out e' /\ e' <> EDone /\ e = blame f e').
Proof.
  intros line k f s files out e H. inversion H; subst.
  - left. repeat eexists; eauto.
  - right. exists docs, after, EPanic. repeat split; auto; discriminate.
  - right. exists docs, after, (EFault r). repeat split; auto; discriminate.
  - right. exists docs, after, (EFault r). repeat split; auto; discriminate.
Qed.
Lemma blame_done : forall f e, blame f e = EDone -> e = EDone.
Proof. intros f [|r|] H; [reflexivity|discriminate|discriminate]. Qed.

Lemma files_sound : forall line fuel n open files k out e, readFiles L W T jp fuel line n k open files = Some (out, e) ->
  writes L W T jp line k (map (fun f => (Some f, open f)) files) out e.
Proof.
  intros line fuel n open files. induction files as [|f files IH]; intros k out e H; cbn [readFiles map] in *.
  - injection H as <- <-. constructor.
  - destruct (open f) as [s|msg]; [|injection H as <- <-; constructor].
    destruct (reader L W T jp fuel line n k s) as [[[b k'] e']|] eqn:Er; [|discriminate].
    apply reader_sound in Er as (docs & after & Hd & Hr & Hk).
    assert (Hstop : e' <> EDone -> Some (b, blame (Some f) e') = Some (out, e) ->
      writes L W T jp line k ((Some f, Got s) :: map (fun f => (Some f, open f)) files) out e).
    { intros Hn Hq. injection Hq as -> <-. eapply write_stop; eauto. }
    destruct e'; try (apply Hstop; [discriminate|exact H]).
    destruct (Hk eq_refl) as [-> ->]. destruct (readFiles L W T jp fuel line n _ open files) as [[r e1]|] eqn:Ef; [|discriminate].
    injection H as <- <-. eapply WrFile; eauto.
Qed.

Lemma files_complete : forall line open files k out e,
  writes L W T jp line k (map (fun f => (Some f, open f)) files) out e ->
  exists fuel n, forall d d', readFiles L W T jp (fuel + d) line (n + d') k open files = Some (out, e).
Proof.
  intros line open files. induction files as [|f files IH]; intros k out e H; cbn [readFiles map] in *.
  - inversion H; subst. exists 0%nat, 0%nat. reflexivity.
  - destruct (open f) as [s|msg]; [|inversion H; subst; exists 0%nat, 0%nat; reflexivity].
    apply write_inv in H as [(docs & out1 & out2 & Hd & Hr & Hw & ->)|(docs & after & e' & Hd & Hr & Hn & ->)].
    + apply IH in Hw as (f2 & n2 & Hw). destruct (reader_complete _ _ _ _ Hd _ _ _ Hr) as (f1 & n1 & k' & Hk & Hr').
      exists (f1 + f2)%nat, (n1 + n2)%nat. intros d d'. rewrite <- !Nat.add_assoc. rewrite Hr'. rewrite (Hk eq_refl).
      replace (f1 + (f2 + d))%nat with (f2 + (f1 + d))%nat by lia. replace (n1 + (n2 + d'))%nat with (n2 + (n1 + d'))%nat by lia.
      rewrite Hw. reflexivity.
    + destruct (reader_complete _ _ _ _ Hd _ _ _ Hr) as (f1 & n1 & k' & Hk & Hr'). exists f1, n1. intros d d'. rewrite Hr'.
      destruct e'; [contradiction|reflexivity|reflexivity].
Qed.
End loops.


Lemma one_input : forall L W T jp line k f s out e, writes L W T jp line k [(f, Got s)] out e <->
  exists docs after e', documents L line s docs after /\ responds L W T jp line after k docs out e' /\ (e' = EDone -> after = EDone) /\ e = blame f e'.
Proof.
  intros. split.
  - intro H. apply write_inv in H as [(docs & out1 & out2 & Hd & Hr & Hw & ->)|(docs & after & e' & Hd & Hr & Hn & ->)].
    + inversion Hw; subst. rewrite app_nil_r. exists docs, EDone, EDone. auto.
    + exists docs, after, e'. split; [exact Hd|]. split; [exact Hr|]. split; [|reflexivity]. intros ->. contradiction.
  - intros (docs & after & e' & Hd & Hr & Ha & ->).
    assert (D : e' = EDone \/ e' <> EDone) by (destruct e'; [left; reflexivity|right; discriminate|right; discriminate]).
    destruct D as [->|Hn]; [|eapply write_stop; eauto]. rewrite (Ha eq_refl) in *.
    rewrite <- (app_nil_r out). eapply WrFile; eauto. constructor.
Qed.

Lemma done_after : forall L W T jp line after k docs out e, responds L W T jp line after k docs out e -> e = EDone -> after = EDone.
Proof. intros L W T jp line after k docs out e H. induction H; intro E; auto; discriminate. Qed.

Lemma jpath_exact : forall L W T line p files open stdin jp, advances L -> JP_Compile (w_text W) p = OK jp -> forall out e,
  (exists fuel n, jpath L W T fuel n line (p :: files) open stdin = Some (out, e)) <->
  writes L W T jp line 0 (inputs open stdin files) out e.
Proof.
  intros L W T line p files open stdin jp HL Hp out e. unfold jpath, inputs. rewrite Hp. destruct files as [|f files].
  - rewrite one_input. split.
    + intros (fuel & n & H). destruct (reader L W T jp fuel line n 0 stdin) as [[[b k'] e']|] eqn:Er; [|discriminate].
      injection H as -> <-. apply reader_sound in Er as (docs & after & Hd & Hr & Hk); [|exact HL]. exists docs, after, e'.
      split; [exact Hd|]. split; [exact Hr|]. split; [|reflexivity]. intro He. apply Hk. exact He.
    + intros (docs & after & e' & Hd & Hr & _ & ->). destruct (reader_complete L W T jp line _ _ _ Hd _ _ _ Hr) as (fuel & n & k' & _ & H).
      exists fuel, n. specialize (H 0%nat 0%nat). rewrite !Nat.add_0_r in H. rewrite H. reflexivity.
  - split.
    + intros (fuel & n & H). eapply files_sound; eauto.
    + intro H. apply files_complete in H as (fuel & n & H). exists fuel, n. specialize (H 0%nat 0%nat). rewrite !Nat.add_0_r in H. exact H.
Qed.

(** ** The interface *)
Lemma compile_ends : forall TX s, is_bytes s -> literal_floats (o_parse_float TX) ->
  (exists jp, JP_Compile TX s = OK jp) \/ exists e, JP_Compile TX s = Fail e.
Proof.
  intros TX s Hs Hf. destruct (path_total TX s Hs) as [[ss Hp]|(e & He & _)].
  - pose proof (compile_interns ss (path_wf TX Hf s ss Hs Hp)) as Hi. unfold JP_Compile. rewrite Hp.
    destruct (Compile ss) as [p|e| |]; cbn in Hi; try contradiction; [left|right]; eauto.
  - right. exists (AParse e). unfold JP_Compile. rewrite He. reflexivity.
Qed.

Lemma must_compile : forall TX s, is_bytes s -> literal_floats (o_parse_float TX) ->
  (JP_MustCompile TX s = Panics <-> exists e, JP_Compile TX s = Fail e) /\
  (forall jp, JP_MustCompile TX s = OK jp <-> JP_Compile TX s = OK jp) /\
  ((exists jp, JP_MustCompile TX s = OK jp) \/ JP_MustCompile TX s = Panics).
Proof.
  intros TX s Hs Hf. unfold JP_MustCompile. destruct (compile_ends TX s Hs Hf) as [[jp E]|[e E]]; rewrite E.
  - split; [split; [discriminate|intros [e He]; discriminate]|]. split; [reflexivity|]. left. eauto.
  - split; [split; eauto|]. split; [intro jp; split; discriminate|]. right. reflexivity.
Qed.

Lemma source_text : forall TX s jp, JP_Compile TX s = OK jp -> JP_String jp = s.
Proof.
  intros TX s jp H. unfold JP_Compile in H. destruct (ParsePath TX s) as [ss| | |]; try discriminate.
  destruct (Compile ss); try discriminate. injection H as <-. reflexivity.
Qed.

(** ** Consequences *)

Lemma responds_flat : forall L W T jp line after k docs out e, responds L W T jp line after k docs out e ->
  exists outs, out = concat outs /\
    (forall i b, nth_error outs i = Some b -> exists p v l, nth_error docs i = Some (p, v) /\
       JP_Eval W (T (k + i)%nat) jp v (OK l) /\ j_encode L line (Some l) = Got b) /\
    ((length outs = length docs /\ e = after) \/
     exists p v, nth_error docs (length outs) = Some (p, v) /\ stops L W (T (k + length outs)%nat) jp line p v e).
Proof.
  intros L W T jp line after k docs out e H. induction H as [k|k p v docs l b out e He Hb H IH|k p v docs err He|k p v docs He|k p v docs l msg He Hb].
  - exists []. split; [reflexivity|]. split; [intros [|i] b; discriminate|]. left. auto.
  - destruct IH as (outs & -> & H1 & H2). exists (b :: outs). split; [reflexivity|]. split.
    + intros [|i] b' Hi; cbn [nth_error] in Hi.
      * injection Hi as <-. exists p, v, l. rewrite Nat.add_0_r. auto.
      * destruct (H1 _ _ Hi) as (p' & v' & l' & A & B & C). exists p', v', l'. replace (k + S i)%nat with (S k + i)%nat by lia. auto.
    + destruct H2 as [[E ->]|(p' & v' & A & B)]; [left; cbn [length]; auto|]. right. exists p', v'. cbn [length nth_error].
      replace (k + S (length outs))%nat with (S k + length outs)%nat by lia. auto.
  - exists []. split; [reflexivity|]. split; [intros [|i] b; discriminate|]. right. exists p, v. cbn [length nth_error]. rewrite Nat.add_0_r.
    split; [reflexivity|]. left. eauto.
  - exists []. split; [reflexivity|]. split; [intros [|i] b; discriminate|]. right. exists p, v. cbn [length nth_error]. rewrite Nat.add_0_r.
    split; [reflexivity|]. right. left. auto.
  - exists []. split; [reflexivity|]. split; [intros [|i] b; discriminate|]. right. exists p, v. cbn [length nth_error]. rewrite Nat.add_0_r.
    split; [reflexivity|]. right. right. eauto.
Qed.

Lemma line_docs_flat : forall L q n ls docs after, line_docs L q n ls docs after ->
  (forall i p v, nth_error docs i = Some (p, v) -> p = n + Z.of_nat i /\ exists l, nth_error ls i = Some l /\ j_unmarshal L l = Got v) /\
  ((length docs = length ls /\ after = q) \/
   (exists l msg, nth_error ls (length docs) = Some l /\ j_unmarshal L l = Lost msg /\ after = EFault (RDecode (n + Z.of_nat (length docs)) msg))).
Proof.
  intros L q n ls docs after H. induction H as [n|n l ls msg Eu|n l ls v docs e Eu H IH].
  - split; [intros [|i]; discriminate|]. left. auto.
  - split; [intros [|i]; discriminate|]. right. exists l, msg. cbn. rewrite Z.add_0_r. auto.
  - destruct IH as [H1 H2]. split.
    + intros [|i] p v' Hi; cbn [nth_error] in *.
      * injection Hi as <- <-. split; [lia|eauto].
      * destruct (H1 _ _ _ Hi) as [-> H3]. split; [lia|exact H3].
    + destruct H2 as [[E ->]|(l' & msg & A & B & ->)]; [left; cbn [length]; auto|]. right. exists l', msg. cbn [length nth_error].
      replace (n + Z.of_nat (S (length docs))) with (n + 1 + Z.of_nat (length docs)) by lia. auto.
Qed.


Lemma text_lines_fun : forall bad ls s q ls' q', text_lines bad s ls q -> text_lines bad s ls' q' -> ls = ls' /\ q = q'.
Proof.
  intro bad. induction ls as [|l ls IH]; intros s q ls' q' H H'; apply lines_scan in H; apply lines_scan in H'; destruct ls' as [|l' ls'].
  - destruct H as [[E ->]|[E ->]], H' as [[E' ->]|[E' ->]]; rewrite E in E'; try discriminate; auto.
  - destruct H' as (r & E' & _). destruct H as [[E _]|[E _]]; congruence.
  - destruct H as (r & E & _). destruct H' as [[E' _]|[E' _]]; congruence.
  - destruct H as (r & E & Hr & _), H' as (r' & E' & Hr' & _). rewrite E in E'. injection E' as <- <-.
    destruct (IH _ _ _ _ Hr Hr') as [-> ->]. auto.
Qed.

Lemma jpath_lines : forall L W T p open stdin jp fuel n out e ls q, advances L -> one_line L -> JP_Compile (w_text W) p = OK jp ->
  jpath L W T fuel n true [p] open stdin = Some (out, e) -> text_lines (in_bad stdin) (in_text stdin) ls q ->
  exists outs, out = concat (map (fun o => o ++ [10]) outs) /\ Forall (fun o => ~ In 10 o) outs /\
    (forall i o, nth_error outs i = Some o -> exists l v r, nth_error ls i = Some l /\ j_unmarshal L l = Got v /\
       JP_Eval W (T i) jp v (OK r) /\ j_encode L true (Some r) = Got (o ++ [10])) /\
    ((length outs = length ls /\ e = blame None q) \/
     exists l, nth_error ls (length outs) = Some l /\
       ((exists msg, j_unmarshal L l = Lost msg /\ e = EFault (FStdin (RDecode (1 + Z.of_nat (length outs)) msg))) \/
        exists v e', j_unmarshal L l = Got v /\ stops L W (T (length outs)) jp true (1 + Z.of_nat (length outs)) v e' /\ e = blame None e')).
Proof.
  intros L W T p open stdin jp fuel n out e ls q HL H1 Hp H Hs.
  assert (Hw : writes L W T jp true 0 (inputs open stdin []) out e) by (eapply jpath_exact; eauto).
  cbn [inputs] in Hw. apply one_input in Hw as (docs & after & e' & (ls' & q' & Hs' & Hd) & Hr & _ & ->).
  destruct (text_lines_fun _ _ _ _ _ _ Hs Hs') as [<- <-].
  apply responds_flat in Hr as (outs & -> & A & B). apply line_docs_flat in Hd as [C D].
  assert (Ho : exists os, outs = map (fun o => o ++ [10]) os /\ Forall (fun o => ~ In 10 o) os).
  { assert (Hall : forall b, In b outs -> exists r, b = r ++ [10] /\ ~ In 10 r).
    { intros b Hb. apply In_nth_error in Hb as [i Hi]. destruct (A _ _ Hi) as (? & ? & l & _ & _ & E). exact (H1 _ _ E). }
    clear - Hall. induction outs as [|b outs IH]; [exists []; auto|].
    destruct (Hall b (or_introl eq_refl)) as (r & -> & Hr). destruct IH as (os & -> & Hos); [intros; apply Hall; right; assumption|].
    exists (r :: os). split; [reflexivity|constructor; assumption]. }
  destruct Ho as (os & -> & Hos). exists os. split; [reflexivity|]. split; [exact Hos|]. rewrite map_length in B. split.
  - intros i o Hi. destruct (A i (o ++ [10])) as (p' & v & l & Hn & He & Hj); [rewrite nth_error_map, Hi; reflexivity|].
    destruct (C _ _ _ Hn) as (_ & l0 & Hl & Hu). exists l0, v, l. auto.
  - destruct B as [[B ->]|(p' & v & B & B')].
    + destruct D as [[D ->]|(l & msg & D1 & D2 & ->)]; [left; split; [congruence|reflexivity]|]. right. rewrite B. exists l. split; [exact D1|]. left. exists msg. auto.
    + right. destruct (C _ _ _ B) as (-> & l & Hl & Hu). exists l. split; [exact Hl|]. right. exists v, e'. auto.
Qed.


Lemma stream_docs : forall L bad off s docs after, decodes_docs L -> stream L bad off s docs after -> Forall (fun d => doc (snd d)) docs.
Proof. intros L bad off s docs after [HL _] H. induction H; constructor; eauto. Qed.
Lemma lines_docs : forall L q n ls docs after, decodes_docs L -> line_docs L q n ls docs after -> Forall (fun d => doc (snd d)) docs.
Proof. intros L q n ls docs after [_ HL] H. induction H; constructor; eauto. Qed.
Lemma documents_docs : forall L line s docs after, decodes_docs L -> documents L line s docs after -> Forall (fun d => doc (snd d)) docs.
Proof.
  intros L line s docs after HL H. destruct line; cbn [documents] in H; [destruct H as (ls & q & _ & H); eapply lines_docs; eauto|eapply stream_docs; eauto].
Qed.

Lemma documents_total : forall L line s, advances L -> exists docs after, documents L line s docs after.
Proof.
  intros L line s HL. destruct line; cbn [documents].
  - destruct (cut_lines (in_bad s) (in_text s)) as (ls & q & Hl). destruct (line_docs_total L q ls 1) as (docs & after & Hd). eauto 8.
  - assert (G : forall m q, (length q <= m)%nat -> forall z, exists docs after, stream L (in_bad s) z q docs after); [|eapply G; apply le_n].
    induction m as [|m IHm]; intros q Hq z; (destruct (j_decode L (mkInput q (in_bad s))) as [v' c'| |msg] eqn:E;
      [|exists [], EDone; constructor; exact E|exists [], (EFault (RDecode z msg)); constructor; exact E]); pose proof (HL _ _ _ _ E) as Hc'; [lia|].
    destruct (IHm (skipn c' q)) with (z := z + Z.of_nat c') as (docs & after & Hd); [rewrite skipn_length; lia|].
    exists ((z, v') :: docs), after.
    assert (El : length (firstn c' q) = c') by (rewrite firstn_length; lia).
    rewrite <- (firstn_skipn c' q). apply StMore; [intro E0; rewrite E0 in El; cbn in El; lia|rewrite firstn_skipn, El; exact E|rewrite El; exact Hd].
Qed.

Lemma responds_total : forall TX s ss jp L W T line after, accepted TX s ss jp -> SpecText.fits jp -> orders_ok W ->
  forall docs k, Forall (fun d => doc (snd d)) docs -> exists out e, responds L W T jp line after k docs out e.
Proof.
  intros TX s ss jp L W T line after Ha Hf HW docs. induction docs as [|[p v] docs IH]; intros k Hd; [eexists _, _; constructor|].
  apply Forall_cons_iff in Hd as [Hv Hd]. cbn [snd] in Hv. destruct (text_ends _ _ _ _ Ha Hf W (T k) v HW Hv) as [r Hr].
  destruct r as [l|err| |].
  - destruct (j_encode L line (Some l)) as [b|msg] eqn:Eb.
    + destruct (IH (S k) Hd) as (out & e & H). eexists _, _. eapply RsAnswer; eauto.
    + eexists _, _. eapply RsEncode; eauto.
  - eexists _, _. apply RsError. exact Hr.
  - eexists _, _. apply RsPanic. exact Hr.
  - destruct Hr as [Hr _]. contradiction.
Qed.

Lemma jpath_total : forall ss L W T line p files open stdin jp, advances L -> decodes_docs L -> orders_ok W ->
  accepted (w_text W) p ss jp -> SpecText.fits jp -> exists fuel n out e, jpath L W T fuel n line (p :: files) open stdin = Some (out, e).
Proof.
  intros ss L W T line p files open stdin jp HL HD HW Ha Hf.
  assert (Hp : JP_Compile (w_text W) p = OK jp) by apply Ha.
  enough (G : exists out e, writes L W T jp line 0 (inputs open stdin files) out e).
  { destruct G as (out & e & G). apply (jpath_exact L W T line p files open stdin jp HL Hp) in G as (fuel & n & G). eauto. }
  assert (Hin : forall f msg, In (f, Lost msg) (inputs open stdin files) -> f <> None).
  { unfold inputs. intros f msg. destruct files as [|f0 files]; [intros [H|[]]; discriminate|].
    intros H. apply in_map_iff in H as (x & Hx & _). congruence. }
  revert Hin. generalize 0%nat. generalize (inputs open stdin files). intro l. induction l as [|[f [s|msg]] l IH]; intros k Hin.
  - eexists _, _. constructor.
  - destruct (documents_total L line s HL) as (docs & after & Hd).
    destruct (responds_total _ _ _ _ L W T line after Ha Hf HW docs k (documents_docs _ _ _ _ _ HD Hd)) as (out & e & Hr).
    destruct e as [|fl|].
    + pose proof (done_after _ _ _ _ _ _ _ _ _ _ Hr eq_refl) as ->. destruct (IH (k + length docs)%nat) as (out' & e' & Hw); [intros f' msg Hi; apply (Hin f' msg); right; exact Hi|].
      eexists _, _. eapply WrFile; eauto.
    + eexists _, _. eapply write_stop; [exact Hd|exact Hr|discriminate].
    + eexists _, _. eapply write_stop; [exact Hd|exact Hr|discriminate].
  - destruct f as [f|]; [eexists _, _; constructor|]. exfalso. apply (Hin None msg); [left; reflexivity|reflexivity].
Qed.

Lemma results_docs : forall TX s ss jp W t root l, accepted TX s ss jp -> orders_ok W -> doc root ->
  JP_Eval W t jp root (OK l) -> Forall doc l.
Proof.
  intros TX s ss jp W t root l Ha HW Hd H. apply Forall_forall. intros v Hv.
  destruct (text_within _ _ _ _ Ha W t root l HW H v Hv) as [Hw|[-> _]].
  - intros x Hx. apply Hd. eapply within_trans; eauto.
  - intros x Hx. inversion Hx; subst. exact I.
Qed.

Lemma jpath_encodes : forall ss L W T line p files open stdin jp fuel n out e, advances L -> decodes_docs L -> encodes_docs L -> orders_ok W ->
  accepted (w_text W) p ss jp -> jpath L W T fuel n line (p :: files) open stdin = Some (out, e) ->
  forall f at_ msg, e <> EFault (FFile f (REncode at_ msg)) /\ e <> EFault (FStdin (REncode at_ msg)).
Proof.
  intros ss L W T line p files open stdin jp fuel n out e HL HD HE HW Ha H.
  assert (Hp : JP_Compile (w_text W) p = OK jp) by apply Ha.
  assert (Hw : writes L W T jp line 0 (inputs open stdin files) out e) by (eapply jpath_exact; eauto).
  assert (Hresp : forall after k docs out at_ msg, responds L W T jp line after k docs out (EFault (REncode at_ msg)) -> Forall (fun d => doc (snd d)) docs ->
    after = EFault (REncode at_ msg)).
  { intros after k docs o at_ msg Hr. remember (EFault (REncode at_ msg)) as e0 eqn:E.
    induction Hr as [k'|k' p' v docs l b o' e' He Hb Hr IH|k' p' v docs err He|k' p' v docs He|k' p' v docs l msg' He Hb];
      intros Hd; auto; try discriminate; apply Forall_cons_iff in Hd as [Hv Hd]; auto.
    exfalso. destruct (HE line l) as [b Hb']; [eapply results_docs; eauto|congruence]. }
  assert (Hafter : forall s docs at_ msg, documents L line s docs (EFault (REncode at_ msg)) -> False).
  { intros s docs at_ msg Hd. destruct line; cbn [documents] in Hd.
    - destruct Hd as (ls & q & Hl & Hd). apply line_docs_flat in Hd as [_ [[_ E]|(? & ? & _ & _ & E)]]; [|discriminate]. subst q.
      clear - Hl. remember (EFault (REncode at_ msg)) as e eqn:Ee.
      induction Hl as [e [[_ ->]|(? & _ & ->)]| |l l' e H1 H2 H3 H4 [[_ ->]|(? & _ & ->)]|]; auto; discriminate.
    - remember (EFault (REncode at_ msg)) as e0 eqn:Ee. clear - Hd Ee. induction Hd; auto; discriminate. }
  clear H. intros f at_ msg.
  induction Hw as [k|k f' msg' files'|k f' s files' docs out1 out2 e Hd Hr Hw IH|k f' s files' docs after o Hd Hr|k f' s files' docs after o r Hd Hr|k s files' docs after o r Hd Hr];
    auto; try (split; discriminate); split; intro E; try discriminate; injection E; intros; subst;
    pose proof (Hresp _ _ _ _ _ _ Hr (documents_docs _ _ _ _ _ HD Hd)) as ->; eapply Hafter; eauto.
Qed.

Lemma lines_unique : forall bad s, exists ls q, text_lines bad s ls q /\ forall ls' q', text_lines bad s ls' q' -> ls' = ls /\ q' = q.
Proof.
  intros bad s. destruct (cut_lines bad s) as (ls & q & H). exists ls, q. split; [exact H|]. intros ls' q' H'. destruct (text_lines_fun _ _ _ _ _ _ H H'); auto.
Qed.

(** ** A small library for jpath: the documents are digits, with spaces before them; results
    are written as their number *)
Fixpoint x_skip (s : bytes) : bytes := match s with c :: s' => if (c =? 32) || (c =? 10) then x_skip s' else s | [] => [] end.
Definition x_digit (c : Z) : option val := if (48 <=? c) && (c <=? 57) then Some (VFloat (f_of_Z (c - 48))) else None.
Definition x_decode (i : input) : decoded :=
  match x_skip (in_text i) with
  | [] => match in_bad i with Some msg => DError msg | None => DEof end
  | c :: r => match x_digit c with Some v => DValue v (length (in_text i) - length r) | None => DError (b_of "invalid character") end
  end.
Definition x_unmarshal (s : bytes) : tried val :=
  match x_skip s with
  | [c] => match x_digit c with Some v => Got v | None => Lost (b_of "invalid character") end
  | _ => Lost (b_of "unexpected end of JSON input")
  end.
Definition x_lib : jsonlib :=
  mkLib x_decode x_unmarshal (fun _ g => Got (b_of "[" ++ match g with Some l => [48 + Z.of_nat (length l) mod 10] | None => [] end ++ b_of "]" ++ [10])).

Lemma x_skip_length : forall s, (length (x_skip s) <= length s)%nat.
Proof. induction s as [|c s IH]; [apply le_n|]. cbn [x_skip]. destruct ((c =? 32) || (c =? 10)); cbn [length]; lia. Qed.
Lemma x_digit_doc : forall c v, x_digit c = Some v -> doc v.
Proof.
  intros c v H. unfold x_digit in H. destruct ((48 <=? c) && (c <=? 57)) eqn:E; [|discriminate]. injection H as <-. apply andb_prop in E as [E1 E2].
  apply docb_doc. assert (Hc : c = 48 \/ c = 49 \/ c = 50 \/ c = 51 \/ c = 52 \/ c = 53 \/ c = 54 \/ c = 55 \/ c = 56 \/ c = 57) by lia.
  destruct Hc as [->|[->|[->|[->|[->|[->|[->|[->|[->| ->]]]]]]]]]; vm_compute; reflexivity.
Qed.

Lemma x_lib_advances : advances x_lib.
Proof.
  intros s bad v n H. cbn [j_decode x_lib] in H. unfold x_decode in H. cbn [in_text in_bad] in H. pose proof (x_skip_length s). destruct (x_skip s) as [|c r]; [destruct bad; discriminate|].
  destruct (x_digit c); [|discriminate]. injection H as _ <-. cbn [length] in *. lia.
Qed.
Lemma x_lib_docs : decodes_docs x_lib.
Proof.
  split.
  - intros [s bad] v n H. cbn [j_decode x_lib] in H. unfold x_decode in H. cbn [in_text in_bad] in H. destruct (x_skip s) as [|c r]; [destruct bad; discriminate|].
    destruct (x_digit c) eqn:E; [|discriminate]. injection H as <- _. eapply x_digit_doc; eauto.
  - intros s v H. cbn [j_unmarshal x_lib] in H. unfold x_unmarshal in H. destruct (x_skip s) as [|c [|]]; try discriminate. destruct (x_digit c) eqn:E; [|discriminate]. injection H as <-. eapply x_digit_doc; eauto.
Qed.
Lemma x_lib_encodes : encodes_docs x_lib.
Proof. intros line l _. eexists. reflexivity. Qed.
Lemma x_lib_line : one_line x_lib.
Proof.
  intros l b H. cbn [j_encode x_lib] in H. injection H as <-. exists (b_of "[" ++ [48 + Z.of_nat (length l) mod 10] ++ b_of "]").
  split; [reflexivity|]. pose proof (Z.mod_pos_bound (Z.of_nat (length l)) 10 eq_refl) as Hm. revert Hm.
  generalize (Z.of_nat (length l) mod 10). intros z Hz [E|[E|[E|[]]]]; [discriminate|lia|discriminate].
Qed.

(** ** A line too long *)
Lemma split_spaces : forall k n r, n <= Z.of_nat k -> split_line n (repeat 32 k ++ r) = None.
Proof.
  induction k as [|k IH]; intros n r H.
  - cbn [repeat app]. destruct r as [|c r]; [reflexivity|]. cbn [split_line]. destruct (Z.leb_spec n 0); [reflexivity|lia].
  - cbn [repeat app split_line]. destruct (Z.leb_spec n 0); [reflexivity|]. change (32 =? 10) with false. cbn iota. rewrite IH by lia. reflexivity.
Qed.

Lemma skip_repeat : forall k r, x_skip (repeat 32 k ++ r) = x_skip r.
Proof. induction k as [|k IH]; intro r; [reflexivity|]. cbn. apply IH. Qed.

Lemma run_root : forall t v, JP_Eval x_world t (jp_of (b_of "$")) v (OK [v]).
Proof. intros t v. split; [discriminate|]. exists 20%nat. vm_compute. reflexivity. Qed.

Lemma long_refuted : exists L W T p ss jp ls, advances L /\ one_line L /\ decodes_docs L /\ encodes_docs L /\ orders_ok W /\
  accepted (w_text W) p ss jp /\ SpecText.fits jp /\ Forall (fun l => ~ In 10 l) ls /\
  (forall l, In l ls -> exists v r, j_unmarshal L l = Got v /\ forall t, JP_Eval W t jp v (OK r)) /\ length ls = 2%nat /\
  exists fuel n, jpath L W T fuel n true [p] (fun _ => Lost []) (mkInput (concat (map (fun l => l ++ [10]) ls)) None) = Some ([], EFault (FStdin (RRead (b_of "bufio.Scanner: token too long")))).
Proof.
  exists x_lib, x_world, (fun k => k), (b_of "$"), (steps_of (b_of "$")), (jp_of (b_of "$")),
    [repeat 32 (Z.to_nat 65536) ++ [49]; [50]].
  split; [exact x_lib_advances|]. split; [exact x_lib_line|]. split; [exact x_lib_docs|]. split; [exact x_lib_encodes|].
  split; [exact x_world_ok|]. split; [apply acceptedb_ok; vm_compute; reflexivity|]. split; [vm_compute; reflexivity|]. split.
  { constructor; [|constructor; [cbn; intuition congruence|constructor]]. intro H. apply in_app_or in H as [H|H]; [|cbn in H; intuition congruence].
    apply repeat_spec in H. discriminate. }
  split.
  { intros l [<-|[<-|[]]].
    - exists (VFloat (f_of_Z 1)), [VFloat (f_of_Z 1)]. split; [|intro t; apply run_root]. cbn [x_lib j_unmarshal]. unfold x_unmarshal. rewrite skip_repeat. reflexivity.
    - exists (VFloat (f_of_Z 2)), [VFloat (f_of_Z 2)]. split; [reflexivity|intro t; apply run_root]. }
  split; [reflexivity|]. exists 20%nat, 1%nat. unfold jpath. change (JP_Compile (w_text x_world) (b_of "$")) with (OK (E := api_err) (jp_of (b_of "$"))).
  cbn [reader readLines map concat in_text in_bad]. unfold scan. rewrite <- !app_assoc, split_spaces by (rewrite Z2Nat.id; unfold max_line; lia).
  rewrite app_length, repeat_length, Nat2Z.inj_add, Z2Nat.id by lia.
  destruct (Z.leb_spec max_line (65536 + Z.of_nat (length ([49] ++ [10] ++ ([50] ++ [10]) ++ [])))); [reflexivity|unfold max_line in *; lia].
Qed.

Lemma app_inv_len : forall (A : Type) (a b c d : list A), a ++ c = b ++ d -> length a = length b -> a = b /\ c = d.
Proof.
  intros A a. induction a as [|x a IH]; intros [|y b] c d H Hl; cbn in *; try discriminate; auto.
  injection H as -> H. destruct (IH b c d H) as [-> ->]; auto.
Qed.

Lemma stream_fun : forall L bad off s docs after, stream L bad off s docs after -> forall docs' after', stream L bad off s docs' after' -> docs' = docs /\ after' = after.
Proof.
  intros L bad off s docs after H. induction H as [off s E|off s msg E|off a s v docs e Ha E H IH]; intros docs' after' H'.
  - destruct H' as [? ? E'|? ? ? E'|? ? ? ? ? ? _ E' _]; rewrite E in E'; try discriminate; try (injection E' as ->); auto.
  - destruct H' as [? ? E'|? ? ? E'|? ? ? ? ? ? _ E' _]; rewrite E in E'; try discriminate; try (injection E' as ->); auto.
  - inversion H' as [? ? E'|? ? ? E'|? b s' v' docs2 ? Hb E' H2 E1 Es Ed]; subst; try congruence.
    rewrite Es, E in E'. injection E' as <- El. apply app_inv_len in Es as [-> ->]; [|congruence].
    destruct (IH _ _ H2) as [-> ->]. auto.
Qed.

Lemma jpath_values : forall L W T p open stdin jp fuel n out e docs after, advances L -> JP_Compile (w_text W) p = OK jp ->
  jpath L W T fuel n false [p] open stdin = Some (out, e) -> stream L (in_bad stdin) 0 (in_text stdin) docs after ->
  exists outs, out = concat outs /\
    (forall i b, nth_error outs i = Some b -> exists p v l, nth_error docs i = Some (p, v) /\
       JP_Eval W (T i) jp v (OK l) /\ j_encode L false (Some l) = Got b) /\
    ((length outs = length docs /\ e = blame None after) \/
     exists p v e', nth_error docs (length outs) = Some (p, v) /\ stops L W (T (length outs)) jp false p v e' /\ e = blame None e').
Proof.
  intros L W T p open stdin jp fuel n out e docs after HL Hp H Hs.
  assert (Hw : writes L W T jp false 0 (inputs open stdin []) out e) by (eapply jpath_exact; eauto).
  cbn [inputs] in Hw. apply one_input in Hw as (docs' & after' & e' & Hd & Hr & _ & ->). cbn [documents] in Hd.
  destruct (stream_fun _ _ _ _ _ _ Hs _ _ Hd) as [-> ->]. apply responds_flat in Hr as (outs & -> & A & B). exists outs. split; [reflexivity|]. split; [exact A|].
  destruct B as [[B ->]|(p' & v & B & B')]; [left; auto|]. right. exists p', v, e'. auto.
Qed.

(** ** Exit status *)
Lemma line_docs_fun : forall L q n ls docs after, line_docs L q n ls docs after -> forall docs' after',
  line_docs L q n ls docs' after' -> docs' = docs /\ after' = after.
Proof.
  intros L q n ls docs after H. induction H as [n|n l ls msg E|n l ls v docs e E H IH]; intros docs' after' H'; inversion H'; subst; auto; try congruence.
  { match goal with K : j_unmarshal L l = Lost ?x |- _ => assert (x = msg) by congruence; subst x end. auto. }
  match goal with K : j_unmarshal L l = Got ?x, J : line_docs L q (n + 1) ls _ _ |- _ =>
    assert (x = v) by congruence; subst x; destruct (IH _ _ J) as [-> ->] end. auto.
Qed.

Lemma documents_fun : forall L line s docs after docs' after', documents L line s docs after -> documents L line s docs' after' ->
  docs' = docs /\ after' = after.
Proof.
  intros L line s docs after docs' after' H H'. destruct line; cbn [documents] in *; [|eapply stream_fun; eauto].
  destruct H as (ls & e & H1 & H2). destruct H' as (ls' & e' & H1' & H2').
  destruct (text_lines_fun _ _ _ _ _ _ H1 H1') as [<- <-]. eapply line_docs_fun; eauto.
Qed.

Ltac eval_once := match goal with A : JP_Eval ?W ?t ?jp ?v ?x, B : JP_Eval ?W ?t ?jp ?v ?y |- _ =>
  let H := fresh "Heq" in pose proof (TextProofs.eval_unique _ _ _ _ _ _ A B) as H; clear B; try discriminate H; try injection H as H end.

Lemma responds_fun : forall L W T jp line after k docs out e, responds L W T jp line after k docs out e -> forall out' e',
  responds L W T jp line after k docs out' e' -> out' = out /\ e' = e.
Proof.
  intros L W T jp line after k docs out e H.
  induction H as [k|k p v docs l b out e He Hb Hr IH|k p v docs err He|k p v docs He|k p v docs l msg He Hb]; intros out' e' H'; inversion H'; subst; auto;
    eval_once; subst; auto; try congruence.
  - match goal with A : j_encode L line _ = Got ?c |- _ => assert (c = b) by congruence; subst c; clear A end.
    match goal with A : responds _ _ _ _ _ _ (S k) _ _ _ |- _ => destruct (IH _ _ A) as [-> ->] end. auto.
  - match goal with A : j_encode L line _ = Lost ?c |- _ => assert (c = msg) by congruence; subst c end. auto.
Qed.

Lemma writes_fun : forall L W T jp line k files out e, writes L W T jp line k files out e -> forall out' e',
  writes L W T jp line k files out' e' -> out' = out /\ e' = e.
Proof.
  intros L W T jp line k files. revert k. induction files as [|[f [s|msg]] files IH]; intros k out e H out' e' H'.
  - inversion H; subst. inversion H'; subst. auto.
  - apply write_inv in H as [(docs & o1 & o2 & Hd & Hr & Hw & ->)|(docs & after & e0 & Hd & Hr & Hn & ->)];
    apply write_inv in H' as [(docs' & o1' & o2' & Hd' & Hr' & Hw' & ->)|(docs' & after' & e0' & Hd' & Hr' & Hn' & ->)];
    destruct (documents_fun _ _ _ _ _ _ _ Hd Hd') as [-> E]; rewrite ?E in *; try rewrite <- E in *;
    destruct (responds_fun _ _ _ _ _ _ _ _ _ _ Hr _ _ Hr') as [-> E']; try congruence.
    + destruct (IH _ _ _ Hw _ _ Hw') as [-> ->]. auto.
    + rewrite E'. auto.
  - inversion H; subst. inversion H'; subst. auto.
Qed.

Lemma served_responds : forall L W T jp line docs k,
  (forall i p v, nth_error docs i = Some (p, v) ->
     exists l b, JP_Eval W (T (k + i)%nat) jp v (OK l) /\ j_encode L line (Some l) = Got b) ->
  exists out, responds L W T jp line EDone k docs out EDone.
Proof.
  intros L W T jp line docs. induction docs as [|[p v] docs IH]; intros k H; [exists []; constructor|].
  destruct (H 0%nat p v eq_refl) as (l & b & He & Hb). rewrite Nat.add_0_r in He.
  destruct (IH (S k)) as [out Ho].
  { intros i p' v' Hi. replace (S k + i)%nat with (k + S i)%nat by lia. apply (H (S i) p' v' Hi). }
  exists (b ++ out). eapply RsAnswer; eauto.
Qed.

Lemma responds_served : forall L W T jp line after docs k out, responds L W T jp line after k docs out EDone ->
  forall i p v, nth_error docs i = Some (p, v) ->
     exists l b, JP_Eval W (T (k + i)%nat) jp v (OK l) /\ j_encode L line (Some l) = Got b.
Proof.
  intros L W T jp line after docs k out H. remember EDone as e eqn:Ee. induction H; intros i q w Hi; try discriminate.
  - destruct i; discriminate.
  - destruct i as [|i]; cbn [nth_error] in Hi.
    + injection Hi as <- <-. rewrite Nat.add_0_r. eauto.
    + replace (k + S i)%nat with (S k + i)%nat by lia. eauto.
Qed.

Lemma served_writes : forall L W T jp line files k, served L W T jp line k files <-> exists out, writes L W T jp line k files out EDone.
Proof.
  intros L W T jp line files k. split.
  - intro H. induction H as [k|k f s files docs Hd He H IH]; [exists []; constructor|].
    destruct IH as [out2 H2]. destruct (served_responds _ _ _ _ _ _ _ He) as [out1 H1]. exists (out1 ++ out2). eapply WrFile; eauto.
  - intros [out H]. remember EDone as e eqn:Ee. induction H; try discriminate; [constructor|].
    subst e. eapply SvFile; eauto. eapply responds_served; eauto.
Qed.

Lemma responds_panic : forall L W T jp line after k docs out e, responds L W T jp line after k docs out e -> after <> EPanic -> e = EPanic ->
  exists p v k', In (p, v) docs /\ JP_Eval W k' jp v Panics.
Proof.
  intros L W T jp line after k docs out e H Ha. induction H; intro E; try discriminate; try (exfalso; congruence).
  - destruct (IHresponds E) as (p' & v' & k' & Hi & He). exists p', v', k'. split; [right; exact Hi|exact He].
  - exists p, v, (T k). split; [left; reflexivity|assumption].
Qed.

Lemma documents_after : forall L line s docs after, documents L line s docs after -> after <> EPanic.
Proof.
  intros L line s docs after H. destruct line; cbn [documents] in H.
  - destruct H as (ls & e & Ht & Hl). assert (He : e <> EPanic).
    { clear Hl. induction Ht as [e [[_ ->]|(? & _ & ->)]| |l l' e H1 H2 H3 H4 [[_ ->]|(? & _ & ->)]|]; auto; discriminate. }
    clear Ht. induction Hl; auto; discriminate.
  - induction H; auto; discriminate.
Qed.

Lemma writes_panic : forall L W T jp line k files out e, writes L W T jp line k files out e ->
  e <> EFault FUsage /\ (e = EPanic -> panicked L W T jp line files).
Proof.
  intros L W T jp line k files out e H.
  induction H as [k|k f msg files|k f s files docs out1 out2 e Hd Hr Hw IH|k f s files docs after out Hd Hr|k f s files docs after out r Hd Hr|k s files docs after out r Hd Hr]; try (split; discriminate).
  - destruct IH as [IH1 IH2]. split; [exact IH1|]. intro E. destruct (IH2 E) as (f' & s' & d' & a' & p & v & k' & Hi & H). exists f', s', d', a', p, v, k'.
    split; [right; exact Hi|exact H].
  - pose proof (documents_after _ _ _ _ _ Hd) as H1. split; [discriminate|].
    intros _. destruct (responds_panic _ _ _ _ _ _ _ _ _ _ Hr H1 eq_refl) as (p & v & k' & Hi & He). exists f, s, docs, after, p, v, k'.
    split; [left; reflexivity|auto].
Qed.

Lemma jpath_status : forall L W T line p files open stdin jp fuel n out e, advances L -> JP_Compile (w_text W) p = OK jp ->
  jpath L W T fuel n line (p :: files) open stdin = Some (out, e) ->
  (exit_status e = 0 <-> served L W T jp line 0 (inputs open stdin files)) /\
  (exit_status e = 0 \/ exit_status e = 1 \/ exit_status e = 2 /\ panicked L W T jp line (inputs open stdin files)).
Proof.
  intros L W T line p files open stdin jp fuel n out e HL Hp H.
  assert (Hw : writes L W T jp line 0 (inputs open stdin files) out e) by (eapply jpath_exact; eauto).
  destruct (writes_panic _ _ _ _ _ _ _ _ _ Hw) as [Hu Hpan]. split.
  - rewrite served_writes. split.
    + intro E. exists out. destruct e as [|[]|]; try discriminate; exact Hw.
    + intros [out' Hw']. destruct (writes_fun _ _ _ _ _ _ _ _ _ Hw _ _ Hw') as [_ <-]. reflexivity.
  - destruct e as [|[]|]; cbn [exit_status]; auto; congruence.
Qed.

Lemma jpath_refuses : forall L W T fuel n line open stdin,
  (exists e, jpath L W T fuel n line [] open stdin = Some ([], e) /\ exit_status e = 2) /\
  forall p files err, JP_Compile (w_text W) p = Fail err ->
    exists e, jpath L W T fuel n line (p :: files) open stdin = Some ([], e) /\ exit_status e = 1.
Proof.
  intros L W T fuel n line open stdin. split; [eexists; split; reflexivity|].
  intros p files err E. unfold jpath. rewrite E. eexists. split; reflexivity.
Qed.

Lemma jpath_status_doc : forall ss L W T line p files open stdin jp fuel n out e, advances L -> decodes_docs L -> orders_ok W ->
  accepted (w_text W) p ss jp -> SpecText.fits jp -> jpath L W T fuel n line (p :: files) open stdin = Some (out, e) ->
  (forall f s docs after at_ v, In (f, Got s) (inputs open stdin files) -> documents L line s docs after -> In (at_, v) docs ->
     forall a b c l, slice_in ss a b c -> within (VArr l) v -> ~ overflowing (Z.of_nat (length l)) a b c) ->
  exit_status e = 0 \/ exit_status e = 1.
Proof.
  intros ss L W T line p files open stdin jp fuel n out e HL HD HW Ha Hf H Hs.
  destruct (jpath_status L W T line p files open stdin jp fuel n out e HL ltac:(apply Ha) H) as [_ [E|[E|[_ Hp]]]]; auto.
  exfalso. destruct Hp as (f & s & docs & after & q & v & k & Hi & Hd & Hv & He).
  refine (TextProofs.text_no_panic (w_text W) p ss jp Ha Hf W k v HW _ _ He).
  - pose proof (documents_docs _ _ _ _ _ HD Hd) as F. rewrite Forall_forall in F. apply (F _ Hv).
  - intros a b c l. eapply Hs; eauto.
Qed.
