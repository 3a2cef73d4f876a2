(** Theorems about evaluating paths that were not parsed (C86). *)
From Verif Require Import Base Syntax SpecSyntax SpecGrammar SpecHand Coder Machine Parser SpecDoc SpecCode SpecRun SpecSem
  HandEval Examples.
Local Open Scope Z_scope.

(** ** C86 *)
(** A path shaped like a parsed one, whatever its names, strings, numbers and the order of its
    steps, ends with what it means; missing are programs of 2^22 orders or more, *)
Theorem C86_shaped_partial : forall W root t ss, orders_ok W -> doc root -> wf_path ss -> small ss ->
  exists r, runs W root t [root] ss r /\ path_means W root ss [root] (selected r).
Proof. exact shaped_runs. Qed.
Print Assumptions C86_shaped_partial.

(** and other shapes: some paths compile, and their evaluation never ends on any document, *)
Theorem C86_ends_refuted : exists ss p, Compile ss = OK p /\ prog_size p = 3 /\ ~ Exists hollow_step ss /\
  forall W root t r, ~ runs W root t [root] ss r.
Proof.
  exact (ex_intro _ endless (ex_intro _ endless_prog (conj endless_compiles (conj eq_refl
    (conj (not_hollow _ _ endless_compiles) endless_runs))))).
Qed.
Print Assumptions C86_ends_refuted.

(** or panics on every document. *)
Theorem C86_panics_refuted : exists ss, forall W root t, runs W root t [root] ss Panics.
Proof. exact (ex_intro _ _ empty_panics). Qed.
Print Assumptions C86_panics_refuted.

(** A member whose name is empty: an identifier has at least a letter. *)
Definition y_path : path := [mkStep OpMember [PName []]; mkStep OpWild []].
Definition y_doc : val := VObj [([], VArr [VStr (b_of "a"); VInt64 2])].

Example C86_ex : wf_path y_path /\ small y_path /\ doc y_doc /\
  runs x_world y_doc 0 [y_doc] y_path (OK ([VStr (b_of "a"); VInt64 2], 0%nat)).
Proof.
  split; [repeat constructor|]. split; [vm_compute; reflexivity|]. split; [apply docb_doc; vm_compute; reflexivity|].
  eexists. split; [vm_compute; reflexivity|]. split; [vm_compute; reflexivity|]. split; [discriminate|].
  exists 10%nat. vm_compute. reflexivity.
Qed.
