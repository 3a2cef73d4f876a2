(** A short evaluator for paths of names, strings, integers and wildcards, to compare the
    machine with.  A specification: nothing of the machine. *)
From Verif Require Import Base Syntax Value SpecSelect SpecOnce.
Local Open Scope Z_scope.

Definition member (s : bytes) (m : list (bytes * val)) : list val :=
  match find (fun kv => if list_eq_dec Z.eq_dec (fst kv) s then true else false) m with Some kv => [snd kv] | None => [] end.

(** what one argument selects from a value *)
Definition find_arg (back : bool) (v : val) (a : pval) : list val :=
  match a, v with
  | PName s, VObj m | PStr s, VObj m => member s m
  | PInt n, VObj m => member (decimal n) m
  | PInt n, VArr l =>
      let i := if back && (n <? 0) then n + Z.of_nat (length l) else n in
      if i <? 0 then [] else match nth_error l (Z.to_nat i) with Some x => [x] | None => [] end
  | _, _ => []
  end.

Definition offspring (v : val) : list val :=
  match v with VArr l => l | VObj m => map snd m | _ => [] end.

(** what a step, .. apart, selects from a value *)
Definition find_step (s : pstep) (v : val) : list val :=
  match st_op s with
  | OpWild | OpNestWild => offspring v
  | o => flat_map (find_arg (counts_back o) v) (st_args s)
  end.

(** the containers in a value, itself first *)
Fixpoint containers (v : val) : list val :=
  match v with
  | VArr l => v :: flat_map containers l
  | VObj m => v :: flat_map (fun kv => containers (snd kv)) m
  | _ => []
  end.

Fixpoint find_path (ss : path) (v : val) : list val :=
  match ss with
  | [] => [v]
  | s :: ss => flat_map (find_path ss) (flat_map (find_step s) (if is_nest (st_op s) then containers v else [v]))
  end.
