(** How the arguments of jpath are read: flags, then operands.  A specification: it does not
    mention the functions of Flags. *)
From Verif Require Export Base.
Local Open Scope Z_scope.

Definition dashes (d : bytes) : Prop := d = b_of "-" \/ d = b_of "--".

Definition truths : list (string * bool) :=
  [("1", true); ("t", true); ("T", true); ("TRUE", true); ("true", true); ("True", true);
   ("0", false); ("f", false); ("F", false); ("FALSE", false); ("false", false); ("False", false)]%string.

(** [says s b]: the argument [s] sets the flag to [b] *)
Inductive says : bytes -> bool -> Prop :=
| SaOn : forall d, dashes d -> says (d ++ b_of "l") true
| SaSet : forall d v b, dashes d -> In (v, b) truths -> says (d ++ b_of "l=" ++ b_of v) b.

(** an argument that is no flag: it does not start with a dash, or is a dash *)
Definition operand_arg (s : bytes) : Prop := s = b_of "-" \/ forall r, s <> 45 :: r.

(** the last of some settings; at first it is off *)
Definition last_of (bs : list bool) : bool := last bs false.

(** [command args line rest]: some flags, the last of which sets [line], then the operands [rest];
    these follow --, or the first of them is no flag *)
Inductive command : list bytes -> bool -> list bytes -> Prop :=
| CoPlain : forall fs bs rest, Forall2 says fs bs -> match rest with [] => True | p :: _ => operand_arg p end ->
    command (fs ++ rest) (last_of bs) rest
| CoMarked : forall fs bs rest, Forall2 says fs bs -> command (fs ++ b_of "--" :: rest) (last_of bs) rest.

(** an argument that asks for help: -h or -help, whatever value it is given *)
Inductive helps : bytes -> Prop :=
| HpBare : forall d n, dashes d -> n = b_of "h" \/ n = b_of "help" -> helps (d ++ n)
| HpValue : forall d n v, dashes d -> n = b_of "h" \/ n = b_of "help" -> helps (d ++ n ++ b_of "=" ++ v).
