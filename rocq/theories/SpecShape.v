(** Documents of the same shape: the same arrays and objects with the same keys, and scalars
    that may differ.  A specification: nothing of the machine but its
    kinds of outcome. *)
From Verif Require Import Syntax Value Machine.

(** [shape R v v']: the same but for scalars, and the scalars in the same place are related by
    [R] *)
Inductive shape (R : val -> val -> Prop) : val -> val -> Prop :=
| ShFlat : forall v v', IsStructure v = false -> IsStructure v' = false -> R v v' -> shape R v v'
| ShArr : forall l l', Forall2 (shape R) l l' -> shape R (VArr l) (VArr l')
| ShObj : forall m m', Forall2 (fun x y => fst x = fst y /\ shape R (snd x) (snd y)) m m' -> shape R (VObj m) (VObj m').

(** a path without filters or script expressions *)
Definition plain_arg (a : pval) : Prop := match a with PExpr _ => False | _ => True end.
Definition plain (ss : path) : Prop := Forall (fun s => Forall plain_arg (st_args s)) ss.

(** each scalar of a document replaced *)
Fixpoint scalars (f : val -> val) (v : val) : val :=
  match v with
  | VArr l => VArr (map (scalars f) l)
  | VObj m => VObj (map (fun kv => (fst kv, scalars f (snd kv))) m)
  | _ => f v
  end.

(** values of the same shape in the same order, or panics; never an error *)
Inductive shape_outcome (R : val -> val -> Prop) : M (list val) -> M (list val) -> Prop :=
| SoOK : forall l l', Forall2 (shape R) l l' -> shape_outcome R (OK l) (OK l')
| SoPanics : shape_outcome R Panics Panics.
