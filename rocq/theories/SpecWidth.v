(** Documents that differ only in the Go types of their integers, int or int64.  A
    specification. *)
From Verif Require Import Syntax Value Fns SpecDoc.
Local Open Scope Z_scope.

(** [alike v v']: the same but for the types of integers.  The least integer is left out: see
    C69_refuted. *)
Inductive alike : val -> val -> Prop :=
| AlSame : forall v, (forall l, v <> VArr l) -> (forall m, v <> VObj m) -> alike v v
| AlNarrow : forall z, -9223372036854775808 < z <= 9223372036854775807 -> alike (VInt z) (VInt64 z)
| AlWiden : forall z, -9223372036854775808 < z <= 9223372036854775807 -> alike (VInt64 z) (VInt z)
| AlArr : forall l l', Forall2 alike l l' -> alike (VArr l) (VArr l')
| AlObj : forall m m', Forall2 (fun x y => fst x = fst y /\ alike (snd x) (snd y)) m m' -> alike (VObj m) (VObj m').

Inductive alike_error : rerr -> rerr -> Prop :=
| AeSame : forall e, alike_error e e
| AeMatchRight : forall v v', alike v v' -> alike_error (RMatchRight v) (RMatchRight v')
| AeMatchLeft : forall v v', alike v v' -> alike_error (RMatchLeft v) (RMatchLeft v')
| AeInRight : forall n v v', alike v v' -> alike_error (RInRight n v) (RInRight n v').

Inductive alike_outcome : outcome rerr (list val) -> outcome rerr (list val) -> Prop :=
| AoOK : forall l l', Forall2 alike l l' -> alike_outcome (OK l) (OK l')
| AoFail : forall e e', alike_error e e' -> alike_outcome (Fail e) (Fail e')
| AoPanics : alike_outcome Panics Panics.

(** fmt.Sprint prints an int and an int64 alike *)
Definition prints_alike (W : world) : Prop := forall v v', alike v v' -> w_sprint W v = w_sprint W v'.
