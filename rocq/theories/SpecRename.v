(** Other names for members.  A specification: nothing of the machine. *)
From Verif Require Import Base Syntax Value SpecSelect.

(** the document with each member named anew *)
Fixpoint renamed (f : bytes -> bytes) (v : val) : val :=
  match v with
  | VArr l => VArr (map (renamed f) l)
  | VObj m => VObj (map (fun kv => (f (fst kv), renamed f (snd kv))) m)
  | v => v
  end.

(** the same of paths *)
Definition rename_arg (f : bytes -> bytes) (a : pval) : pval :=
  match a with PName s => PName (f s) | PStr s => PStr (f s) | a => a end.
Definition rename_step (f : bytes -> bytes) (s : pstep) : pstep := mkStep (st_op s) (map (rename_arg f) (st_args s)).

(** different names for different members, and the same for those that the integers of the path name *)
Definition names_anew (f : bytes -> bytes) (ss : path) : Prop :=
  (forall a b, f a = f b -> a = b) /\
  forall s n, In s ss -> In (PInt n) (st_args s) -> f (decimal n) = decimal n.
