(** The reports of paths that do not compile name them. *)
From Verif Require Import Messages SpecMessages Cli CliText.
Local Open Scope Z_scope.

Lemma backquoted_inj : forall s s' x x' : bytes, ~ In 96 s -> ~ In 96 s' -> s ++ 96 :: x = s' ++ 96 :: x' -> s = s'.
Proof.
  induction s as [|c s IH]; intros [|c' s'] x x' H H' E; try reflexivity.
  - injection E as E _. destruct H'. left. symmetry. exact E.
  - injection E as E _. destruct H. left. exact E.
  - injection E as -> E. f_equal. eapply IH; [| |exact E]; intro K; [apply H|apply H']; right; exact K.
Qed.
Lemma quote_inj : forall F G s s' x x', quotes F G -> quote F G s ++ x = quote F G s' ++ x' -> s = s'.
Proof.
  intros F G s s' x x' (H1 & H2 & H3) E. unfold quote in E.
  destruct (mg_backquote G s) eqn:B, (mg_backquote G s') eqn:B'.
  - change (b_of "`") with [96] in E. rewrite <- !app_assoc in E. cbn [app] in E. injection E as E.
    eapply backquoted_inj; [| |exact E]; auto.
  - destruct (H2 s') as [y Hy]. rewrite Hy in E. discriminate E.
  - destruct (H2 s) as [y Hy]. rewrite Hy in E. discriminate E.
  - exact (H3 _ _ _ _ E).
Qed.

Lemma panic_names : forall F G TX TX' s s' m, quotes F G -> MustCompile_panic F G TX s = Some m -> MustCompile_panic F G TX' s' = Some m -> s = s'.
Proof.
  intros F G TX TX' s s' m Hq H H'. unfold MustCompile_panic in *.
  destruct (JP_Compile TX s) as [|e| |]; try discriminate H. destruct (JP_Compile TX' s') as [|e'| |]; try discriminate H'.
  apply (f_equal (fun o => match o with Some x => x | None => [] end)) in H, H'. rewrite <- H in H'. apply app_inv_head in H'.
  symmetry. exact (quote_inj F G s' s _ _ Hq H').
Qed.

Lemma jpath_names : forall F G name L W T fuel n line p files open stdin out e er,
  forall L' W' T' fuel' n' line' p' files' open' stdin' out' e' er', quotes F G ->
  JP_Compile (w_text W) p = Fail er -> JP_Compile (w_text W') p' = Fail er' ->
  jpath L W T fuel n line (p :: files) open stdin = Some (out, e) -> jpath L' W' T' fuel' n' line' (p' :: files') open' stdin' = Some (out', e') ->
  jpath_stderr F G name line e = jpath_stderr F G name line' e' -> p = p'.
Proof.
  intros F G name L W T fuel n line p files open stdin out e er L' W' T' fuel' n' line' p' files' open' stdin' out' e' er' Hq Hp Hp' H H' E.
  unfold jpath in H, H'. rewrite Hp in H. rewrite Hp' in H'. injection H as <- <-. injection H' as <- <-. cbn [jpath_stderr] in E.
  apply (f_equal (fun o => match o with Some x => x | None => [] end)) in E. rewrite !app_assoc in E. apply app_inv_tail in E. rewrite <- !app_assoc in E.
  apply app_inv_head in E. apply app_inv_head in E. cbn [fault_Error] in E. apply app_inv_head in E. exact (quote_inj F G p p' _ _ Hq E).
Qed.
