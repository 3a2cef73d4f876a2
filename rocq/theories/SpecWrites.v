(** What can be said of the writes to jpath's standard output. *)
From Verif Require Export Writes.
Local Open Scope Z_scope.

(** all the bytes of the writes, whether or not they succeeded *)
Definition attempted (log : list (bytes * option (nat * bytes))) : bytes := flat_map fst log.

Definition succeeded (w : bytes * option (nat * bytes)) : Prop := snd w = None.

(** writes with the results that [Out] gives them; those before the last succeed, and have at least
    4096 bytes *)
Definition proper (Out : os_write) (log : list (bytes * option (nat * bytes))) : Prop :=
  forall l b r l', log = l ++ (b, r) :: l' -> r = Out (length l) b /\ b <> [] /\ (l' <> [] -> r = None /\ 4096 <= Z.of_nat (length b)).

(** the error of the last write, as reported when encoding a result *)
Definition write_fault (log : list (bytes * option (nat * bytes))) (e : ended fault) : Prop :=
  exists l b n at_ msg, log = l ++ [(b, Some (n, msg))] /\
    (e = EFault (FStdin (REncode at_ msg)) \/ exists file, e = EFault (FFile file (REncode at_ msg))).
