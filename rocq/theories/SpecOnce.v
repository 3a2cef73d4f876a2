(** Paths that select no place twice. *)
From Verif Require Import Base Syntax Value SpecSelect SpecText.
Local Open Scope Z_scope.

Definition is_union (o : op) : bool := match o with OpUnion | OpNestUnion => true | _ => false end.
Definition is_nest (o : op) : bool :=
  match o with OpNestMember | OpNestSelect | OpNestUnion | OpNestWild | OpNestFilter => true | _ => false end.

(** no step is a union *)
Definition no_union (ss : path) : Prop := forall s, In s ss -> is_union (st_op s) = false.
(** how many steps are written with .. *)
Definition descents (ss : path) : nat := length (filter (fun s => is_nest (st_op s)) ss).

(** the selection consists of the values at places that are all different *)
Definition places_once (root : val) (l : list val) : Prop :=
  exists ps, NoDup ps /\ Forall2 (value_at root) ps l.

(** and elements of an array, with what is in them, come from left to right *)
Definition places_in_order (root : val) (l : list val) : Prop :=
  exists ps, NoDup ps /\ Forall2 (value_at root) ps l /\
    forall a i j b c, (i < j)%nat -> comes_first ps (a ++ AtIndex i :: b) (a ++ AtIndex j :: c).

(** no slice goes backwards *)
Definition forwards (ss : path) : Prop := forall a b c, slice_in ss a b c -> 0 <= or_default 1 c.
