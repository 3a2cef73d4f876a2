(** Paths as patterns for places (C98). *)
From Verif Require Import Base Syntax SpecSyntax Value Machine Parser Api SpecDoc SpecSelect SpecRun SpecText SpecLaws SpecOnce SpecReach SpecCost
  ReachProofs ReachMore OnceMore Examples.
Local Open Scope Z_scope.

(** ** C98 *)
(** A path of names, strings, integers and *, with .. anywhere, cannot fail.  It selects the
    values at the places that match it, and at no others; without unions and with one .. at most,
    each of them once. *)
Theorem C98_places : forall TX s ss jp W t root r, accepted TX s ss jp -> fits jp -> orders_ok W -> doc root ->
  Forall (fun st => Forall literal_key (st_args st)) ss -> JP_Eval W t jp root r ->
  exists l ps, r = OK l /\ Forall2 (value_at root) ps l /\
    (forall p, In p ps <-> exists x, reaches root ss p x) /\
    (no_union ss -> (descents ss <= 1)%nat -> NoDup ps).
Proof. exact text_reaches. Qed.
Print Assumptions C98_places.

(** $..* selects every value of the document but the root, each once. *)
Theorem C98_everything : forall TX s jp W t root r, accepted TX s [mkStep OpNestWild []] jp -> fits jp -> orders_ok W -> doc root ->
  JP_Eval W t jp root r ->
  exists l ps, r = OK l /\ Forall2 (value_at root) ps l /\ NoDup ps /\
    (forall p, In p ps <-> p <> [] /\ exists x, value_at root p x) /\ S (length l) = nodes root.
Proof. exact text_everything. Qed.
Print Assumptions C98_everything.

(** $..name selects every member of that name, at any depth, each once. *)
Theorem C98_named : forall TX s k jp W t root r, accepted TX s [mkStep OpNestMember [PName k]] jp -> fits jp -> orders_ok W -> doc root ->
  JP_Eval W t jp root r ->
  exists l ps, r = OK l /\ Forall2 (value_at root) ps l /\ NoDup ps /\
    (forall p, In p ps <-> exists q x, p = q ++ [AtName k] /\ value_at root p x).
Proof. exact text_named. Qed.
Print Assumptions C98_named.

(** a union after .., with an index from the end; the texts of the other two theorems *)
Example C98_ex : let s := b_of "$..[a,-1].*" in
  let root := VObj [(b_of "a", VArr [VInt64 1; VObj [(b_of "a", VArr [VInt64 2])]])] in
  Forall (fun st => Forall literal_key (st_args st)) (steps_of s) /\
  (exists l, gives s root l /\ length l = 4%nat) /\
  reaches root (steps_of s) [AtName (b_of "a"); AtIndex 1; AtName (b_of "a")] (VArr [VInt64 2]) /\
  steps_of (b_of "$..*") = [mkStep OpNestWild []] /\
  gives (b_of "$..*") root [VArr [VInt64 1; VObj [(b_of "a", VArr [VInt64 2])]]; VInt64 1; VObj [(b_of "a", VArr [VInt64 2])]; VArr [VInt64 2]; VInt64 2] /\
  steps_of (b_of "$..a") = [mkStep OpNestMember [PName (b_of "a")]] /\
  gives (b_of "$..a") root [VArr [VInt64 1; VObj [(b_of "a", VArr [VInt64 2])]]; VArr [VInt64 2]].
Proof.
  cbv zeta. split; [vm_compute; repeat constructor|].
  split; [eexists; split; [gives_tac|vm_compute; reflexivity]|].
  split.
  { vm_compute (steps_of _). apply (RcNest _ _ _ [AtName (b_of "a")] (VArr [VInt64 1; VObj [(b_of "a", VArr [VInt64 2])]]) (AtIndex 1) (VObj [(b_of "a", VArr [VInt64 2])])).
    - reflexivity.
    - econstructor; [left; reflexivity|constructor].
    - exists (PInt (-1)). split; [right; left; reflexivity|]. right. eexists _, 1%nat. split; [reflexivity|]. split; [reflexivity|].
      right. split; [reflexivity|]. cbn. lia.
    - econstructor; [reflexivity|constructor].
    - eapply RcStep; [reflexivity|exact I|econstructor; [left; reflexivity|constructor]|constructor]. }
  split; [vm_compute; reflexivity|]. split; [gives_tac|]. split; [vm_compute; reflexivity|]. gives_tac.
Qed.
