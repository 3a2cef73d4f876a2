(** What jpath's messages are to say.  A specification. *)
From Verif Require Import Syntax Machine Cli Messages SpecCli.
Local Open Scope Z_scope.

(** the number of lines written *)
Fixpoint newlines (s : bytes) : Z :=
  match s with [] => 0 | c :: s' => (if c =? 10 then 1 else 0) + newlines s' end.

(** the same error of a reader, but for what is only in the text of the error *)
Inductive same_trouble (G : messages) : rfault -> rfault -> Prop :=
| StDecode : forall p m, same_trouble G (RDecode p m) (RDecode p m)
| StEval : forall p e e', rerr_Error G e = rerr_Error G e' -> same_trouble G (REval p e) (REval p e')
| StEncode : forall p m, same_trouble G (REncode p m) (REncode p m)
| StRead : forall m, same_trouble G (RRead m) (RRead m).

(** the same end, likewise *)
Inductive same_end (G : messages) : ended fault -> ended fault -> Prop :=
| SeDone : same_end G EDone EDone
| SeOpen : forall f m, same_end G (EFault (FOpen f m)) (EFault (FOpen f m))
| SeFile : forall f r r', same_trouble G r r' -> same_end G (EFault (FFile f r)) (EFault (FFile f r'))
| SeStdin : forall r r', same_trouble G r r' -> same_end G (EFault (FStdin r)) (EFault (FStdin r')).
