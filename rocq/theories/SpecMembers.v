(** Documents that are the same but for the order in which the model lists the members of
    objects: the same Go maps.  A specification: nothing of the machine but its errors. *)
From Coq Require Import Permutation.
From Verif Require Import Syntax Value Machine.

Inductive same_doc : val -> val -> Prop :=
| SdFlat : forall v, IsStructure v = false -> same_doc v v
| SdArr : forall l l', Forall2 same_doc l l' -> same_doc (VArr l) (VArr l')
| SdObj : forall m p m', Permutation m p ->
    Forall2 (fun a b => fst a = fst b /\ same_doc (snd a) (snd b)) p m' -> same_doc (VObj m) (VObj m').

(** the same run-time error *)
Inductive same_error : rerr -> rerr -> Prop :=
| SeSame : forall e, same_error e e
| SeRight : forall v v', same_doc v v' -> same_error (RMatchRight v) (RMatchRight v')
| SeLeft : forall v v', same_doc v v' -> same_error (RMatchLeft v) (RMatchLeft v')
| SeIn : forall n v v', same_doc v v' -> same_error (RInRight n v) (RInRight n v').

(** the same values in the same order, the same error, or panics *)
Inductive same_outcome : M (list val) -> M (list val) -> Prop :=
| SoOK : forall l l', Forall2 same_doc l l' -> same_outcome (OK l) (OK l')
| SoFail : forall e e', same_error e e' -> same_outcome (Fail e) (Fail e')
| SoPanics : same_outcome Panics Panics.

(** fmt.Sprint prints the same maps alike: it sorts their keys *)
Definition prints_same (W : world) : Prop := forall v v', same_doc v v' -> w_sprint W v = w_sprint W v'.
