(** Which values a path lists the members or elements of. *)
From Verif Require Import Base Syntax Value Machine SpecSem SpecOnce SpecFind.
Local Open Scope Z_scope.

(** not an object of two or more members *)
Definition lone (v : val) : Prop := forall m, v = VObj m -> (length m <= 1)%nat.

(** the values a step lists: all of the candidates for * and a filter, all there is in them after
    .., and none for other steps *)
Definition listed (s : pstep) (cands : list val) : list val :=
  match st_op s with
  | OpWild | OpFilter => cands
  | o => if is_nest o then flat_map containers cands else []
  end.

(** no step lists an object of two or more members *)
Fixpoint orderly (W : world) (root : val) (ss : path) (cands : list val) : Prop :=
  match ss with
  | [] => True
  | s :: ss => Forall lone (listed s cands) /\ forall l, step_means W root s cands (OK l) -> orderly W root ss l
  end.
