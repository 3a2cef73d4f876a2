(** Members that integers name. *)
From Verif Require Import Base Syntax SpecSyntax Value Machine Parser Api SpecDoc SpecSelect SpecRun SpecText SpecRename OnceMore Examples.
Local Open Scope Z_scope.

Lemma zero_named : exists s f root l, (forall a b, f a = f b -> a = b) /\
  map (rename_step f) (steps_of s) = steps_of s /\ gives s root l /\ l <> [] /\ gives s (renamed f root) [].
Proof.
  exists (b_of "$[0]"), (fun k => 122 :: k), (VObj [(b_of "0", VInt64 1)]), [VInt64 1].
  split; [intros a b E; injection E as E; exact E|]. split; [vm_compute; reflexivity|]. split; [gives_tac|]. split; [discriminate|]. gives_tac.
Qed.
