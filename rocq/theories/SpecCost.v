(** Sizes of documents, and bounds on the work a path can cause.  A specification. *)
From Verif Require Import Syntax Value SpecDoc.
Local Open Scope nat_scope.

(** the number of values in a value, itself included *)
Fixpoint nodes (v : val) : nat :=
  match v with
  | VArr l => S (list_sum (map nodes l))
  | VObj m => S (list_sum (map (fun kv => nodes (snd kv)) m))
  | _ => 1
  end.

(** the length of the longest chain of values each inside the previous one *)
Fixpoint levels (v : val) : nat :=
  match v with
  | VArr l => S (list_max (map levels l))
  | VObj m => S (list_max (map (fun kv => levels (snd kv)) m))
  | _ => 1
  end.

Definition weight (l : list val) : nat := list_sum (map nodes l).

(** how often a step can copy a value: once for each element of a union, and after ".."
    for each container the value is in *)
Definition growth (h : nat) (s : pstep) : nat :=
  match st_op s with
  | OpUnion => length (st_args s)
  | OpNestUnion => length (st_args s) * h
  | OpNestMember | OpNestSelect | OpNestWild | OpNestFilter => h
  | _ => 1
  end.

Definition iterates (s : pstep) : bool :=
  match st_op s with
  | OpFilter | OpNestMember | OpNestSelect | OpNestUnion | OpNestWild | OpNestFilter => true
  | _ => false
  end.

(** a bound on the number of values iterated over by the steps [ss] when they start on a
    selection of weight [w] whose values have at most [h] levels *)
Fixpoint visits (h w : nat) (ss : path) : nat :=
  match ss with
  | [] => 0
  | s :: r => (if iterates s then w else 0) + visits h (growth h s * w) r
  end.

(** how often the steps [ss] can copy a value *)
Definition copies (h : nat) (ss : path) : nat := fold_right (fun s n => growth h s * n) 1 ss.

(** [0,0][0,0]..., and an array in an array in an array ... around null *)
Definition twice : pstep := mkStep OpUnion [PInt 0; PInt 0].
Definition nested_arrays (n : nat) : val := Nat.iter n (fun v => VArr [v]) VNil.
