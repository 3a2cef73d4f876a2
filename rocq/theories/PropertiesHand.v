(** Theorems about compiling paths that were not parsed (C85). *)
From Verif Require Import Base Syntax SpecSyntax SpecHand Coder Parser Api SpecGrammar HandProofs Examples.
Local Open Scope Z_scope.

(** ** C85 *)
(** Compile ends for every path: it gives a program with one order for every part of the path that
    is looked at; or it panics, and then a step is hollow; or there are too many constants, and
    then the path has more than 2^22 parts. *)
Theorem C85_outcome : forall ss,
  (exists p, Compile ss = OK p /\ ~ Exists hollow_step ss /\ length (p_orders p) = orders_path ss) \/
  (Compile ss = Panics /\ Exists hollow_step ss) \/
  (Compile ss = Fail ErrTooManyVals /\ 4194304 < Z.of_nat (orders_path ss)).
Proof. exact hand_outcome. Qed.
Print Assumptions C85_outcome.

(** Of smaller paths it panics on exactly those with a hollow step. *)
Theorem C85_panics : forall ss, Z.of_nat (orders_path ss) <= 4194304 ->
  (Compile ss = Panics <-> Exists hollow_step ss).
Proof. exact hand_panics. Qed.
Print Assumptions C85_panics.

(** No path that was parsed has one. *)
Theorem C85_parsed : forall TX s ss, is_bytes s -> literal_floats (o_parse_float TX) -> ParsePath TX s = OK ss ->
  ~ Exists hollow_step ss.
Proof. exact parsed_not_hollow. Qed.
Print Assumptions C85_parsed.

(** Paths by hand: a name as a step with no name; a name with operands inside a filter, alone and
    under an operator that is not looked into; a name as a step, whose second argument is ignored;
    and a filter that is parsed. *)
Definition y_leaf : path := [mkStep OpMember [PName (b_of "a")]; mkStep OpID []].
Definition y_inner : path := [mkStep OpFilter [PExpr (EInner OpNot [EInner OpID [EInt 1]])]].
Definition y_hidden : path := [mkStep OpFilter [PExpr (EInner OpNull [EInner OpID [EInt 1]])]].
Definition y_second : path := [mkStep OpID [PName (b_of "a"); PExpr (EInner OpID [])]].
Definition y_parsed : path := steps_of (b_of "$.c[?(@.b)]").

Example C85_ex :
  map Compile [y_leaf; y_inner] = [Panics; Panics] /\ map orders_path [y_leaf; y_inner] = [2; 5]%nat /\
  Exists hollow_step y_leaf /\ Exists hollow_step y_inner /\
  map (fun y => match Compile y with OK p => length (p_orders p) | _ => O end) [y_hidden; y_second; y_parsed] = [4; 1; 8]%nat /\
  map orders_path [y_hidden; y_second; y_parsed] = [4; 1; 8]%nat /\
  ~ Exists hollow_step y_hidden /\ ~ Exists hollow_step y_second.
Proof.
  assert (N : forall y p, Compile y = OK p -> ~ Exists hollow_step y).
  { intros y p H. destruct (C85_outcome y) as [[q [_ [K _]]]|[[K _]|[K _]]]; [exact K|congruence|congruence]. }
  repeat split; try (vm_compute; reflexivity).
  - apply Exists_cons_tl, Exists_cons_hd. left. cbn. tauto.
  - apply Exists_cons_hd. right. split; [cbn; intuition discriminate|]. eexists. split; [left; reflexivity|].
    cbn. eapply HoKid; [cbn; intuition discriminate|left; reflexivity|]. apply HoHere. cbn. tauto.
  - eapply N. vm_compute. reflexivity.
  - eapply N. vm_compute. reflexivity.
Qed.
