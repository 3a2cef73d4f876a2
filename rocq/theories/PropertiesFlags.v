(** Theorems about the arguments of jpath (C87). *)
From Verif Require Import Base SpecFlags Flags Api CliProofs FlagProofs Examples.
Local Open Scope Z_scope.

(** ** C87 *)
(** jpath reads its arguments as flags and then operands, and does with them what it does with the
    last setting of -l, the path and the files; *)
Theorem C87_main : forall L W T fuel n args open stdin r, jpath_main L W T fuel n args open stdin = Some r <->
  exists line rest, command args line rest /\ r = jpath L W T fuel n line rest open stdin.
Proof. exact main_exact. Qed.
Print Assumptions C87_main.

(** in at most one way, *)
Theorem C87_unique : forall args l r l' r', command args l r -> command args l' r' -> l = l' /\ r = r'.
Proof. exact command_unique. Qed.
Print Assumptions C87_unique.

(** and package flag refuses all others. *)
Theorem C87_refuses : forall L W T fuel n args open stdin, jpath_main L W T fuel n args open stdin = None <->
  forall line rest, ~ command args line rest.
Proof. exact main_refuses. Qed.
Print Assumptions C87_refuses.

(** The refusal is an answer to a request for help exactly if the first argument that does not set
    the flag is -h or -help. *)
Theorem C87_help : forall args, flag_parse false args = PHelped <->
  exists fs bs h rest, args = fs ++ h :: rest /\ Forall2 says fs bs /\ helps h.
Proof. exact help_exact. Qed.
Print Assumptions C87_help.

(** A path that compiles is never taken for a flag: it needs no -- before it. *)
Theorem C87_path : forall TX p jp fs bs files, is_bytes p -> JP_Compile TX p = OK jp -> Forall2 says fs bs ->
  command (fs ++ p :: files) (last_of bs) (p :: files).
Proof. exact path_given. Qed.
Print Assumptions C87_path.

(** But the flag is not one after the path: there -l is the name of a file. *)
Theorem C87_late : forall s files, operand_arg s -> command (s :: b_of "-l" :: files) false (s :: b_of "-l" :: files).
Proof. exact flag_late. Qed.
Print Assumptions C87_late.

Example C87_ex : let args := map b_of ["-l"; "--l=F"; "-l=1"; "$.a"; "-l"]%string in
  command args true (map b_of ["$.a"; "-l"]%string) /\
  (exists jp, JP_Compile x_text (b_of "$.a") = OK jp) /\
  map (flag_parse false) [map b_of ["-l"; "--"; "-x"]%string; map b_of ["-"; "--"]%string; map b_of ["--l=no"; "$"]%string;
    map b_of ["-l"; "-h"]%string; map b_of ["---l"; "$"]%string; map b_of ["-="]%string; map b_of ["-ll"; "$"]%string; map b_of ["--"]%string] =
  [PRest true [b_of "-x"]; PRest false (map b_of ["-"; "--"]%string); PRefused; PHelped; PRefused; PRefused; PRefused; PRest false []] /\
  (forall fuel n stdin open, jpath_main x_lib x_world (fun k => k) fuel n [b_of "-l"] open stdin = Some (Some ([], EFault FUsage))) /\
  operand_arg (b_of "$.a").
Proof.
  cbv zeta. split; [|split; [eexists; vm_compute; reflexivity|split; [vm_compute; reflexivity|split; [reflexivity|right; discriminate]]]].
  apply (CoPlain (map b_of ["-l"; "--l=F"; "-l=1"]%string) [true; false; true] (map b_of ["$.a"; "-l"]%string)).
  - constructor; [apply (SaOn (b_of "-")); left; reflexivity|].
    constructor; [apply (SaSet (b_of "--") "F"); [right; reflexivity|cbn; tauto]|].
    constructor; [apply (SaSet (b_of "-") "1"); [left; reflexivity|cbn; tauto]|constructor].
  - right. discriminate.
Qed.

Example C87_help_ex : Forall2 says [b_of "-l=f"] [false] /\ helps (b_of "--help=l") /\ flag_parse false (map b_of ["-l=f"; "--help=l"; "-x"]%string) = PHelped.
Proof.
  split; [constructor; [apply (SaSet (b_of "-") "f"); [left; reflexivity|cbn; tauto]|constructor]|].
  split; [apply (HpValue (b_of "--") (b_of "help") (b_of "l")); right; reflexivity|reflexivity].
Qed.
