(** Documents to which members of objects, and elements of arrays, are added.  A specification:
    nothing of the machine. *)
From Coq Require Import Permutation.
From Verif Require Import Syntax Value.
Local Open Scope Z_scope.

(** [grows more v v']: [v'] is [v] with more members in some of its objects, and if [more] also
    more elements at the end of some of its arrays *)
Inductive grows (more : bool) : val -> val -> Prop :=
| GrFlat : forall v, IsStructure v = false -> grows more v v
| GrArr : forall l l1 new, Forall2 (grows more) l l1 -> more = true \/ new = [] -> grows more (VArr l) (VArr (l1 ++ new))
| GrObj : forall m m1 new m', Forall2 (fun x y => fst x = fst y /\ grows more (snd x) (snd y)) m m1 ->
    Permutation m' (m1 ++ new) -> grows more (VObj m) (VObj m').

(** [includes more l l']: each value of [l] is found grown in [l'], in some order, each at a
    place of its own *)
Definition includes (more : bool) (l l' : list val) : Prop :=
  exists l1 rest, Forall2 (grows more) l l1 /\ Permutation l' (l1 ++ rest).

(** names, strings and integers; integers that count from the end only if arrays do not grow *)
Definition stays (more : bool) (a : pval) : Prop :=
  match a with
  | PName _ | PStr _ => True
  | PInt n => more = true -> 0 <= n
  | _ => False
  end.
