(** Paths as patterns for places.  A specification: nothing of the machine. *)
From Verif Require Import Base Syntax Value SpecSelect SpecOnce.
Local Open Scope Z_scope.

(** [arg_key back v a k]: the name, string or integer [a], as an argument of a step, stands for
    the key [k] in the value [v]; with [back], negative integers count from the end *)
Definition arg_key (back : bool) (v : val) (a : pval) (k : key) : Prop :=
  match a with
  | PName s | PStr s => k = AtName s
  | PInt n => k = AtName (decimal n) \/
      exists l i, v = VArr l /\ k = AtIndex i /\
        (Z.of_nat i = n \/ (back = true /\ n < 0 /\ Z.of_nat i = n + Z.of_nat (length l)))
  | _ => False
  end.

(** the keys a step allows in a value: any, for *, or those its arguments stand for *)
Definition step_key (s : pstep) (v : val) (k : key) : Prop :=
  match st_op s with
  | OpWild | OpNestWild => True
  | o => exists a, In a (st_args s) /\ arg_key (counts_back o) v a k
  end.

(** [reaches v ss p x]: the place [p] in [v], where [x] is found, matches the steps: one key for
    each, and after .. any others before it *)
Inductive reaches : val -> path -> list key -> val -> Prop :=
| RcEnd : forall v, reaches v [] [] v
| RcStep : forall v s ss k y p x, is_nest (st_op s) = false -> step_key s v k -> value_at v [k] y ->
    reaches y ss p x -> reaches v (s :: ss) (k :: p) x
| RcNest : forall v s ss q d k y p x, is_nest (st_op s) = true -> value_at v q d -> step_key s d k -> value_at d [k] y ->
    reaches y ss p x -> reaches v (s :: ss) (q ++ k :: p) x.
