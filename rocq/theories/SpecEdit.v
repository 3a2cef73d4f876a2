(** Changing a document at one place.  A specification: nothing of the machine. *)
From Verif Require Import Base Value SpecSelect.

(** [edits v p v']: [v'] is [v] with another value, or the same, at the place [p] *)
Inductive edits : val -> list key -> val -> Prop :=
| EdHere : forall v v', edits v [] v'
| EdIndex : forall l1 l2 e e' p, edits e p e' -> edits (VArr (l1 ++ e :: l2)) (AtIndex (length l1) :: p) (VArr (l1 ++ e' :: l2))
| EdName : forall m1 m2 k e e' p, edits e p e' -> edits (VObj (m1 ++ (k, e) :: m2)) (AtName k :: p) (VObj (m1 ++ (k, e') :: m2)).

(** a place inside the value at another *)
Definition below (p q : list key) : Prop := exists k r, q = p ++ k :: r.
(** neither is inside the other, and they are not the same *)
Definition elsewhere (p q : list key) : Prop := p <> q /\ ~ below p q /\ ~ below q p.
