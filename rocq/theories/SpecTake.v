(** The short evaluator of [SpecFind] with slices.  A specification: nothing of the machine. *)
From Verif Require Import Base Syntax Value SpecSelect SpecText SpecOnce SpecFind.
Local Open Scope Z_scope.

(** any argument but an expression *)
Definition exprless (a : pval) : Prop := match a with PExpr _ => False | _ => True end.

(** the positions of [a:b:c] in an array of [len] elements *)
Definition slice_at (len : Z) (a b c : option Z) : list Z :=
  let s := or_default 1 c in
  if 0 <? s then
    let from := clip 0 len (from_end len (or_default 0 a)) in
    let to := clip 0 len (from_end len (or_default len b)) in
    progression from s (Z.to_nat ((to - from + s - 1) / s))
  else if s <? 0 then
    let from := clip (-1) (len - 1) (from_end len (or_default (len - 1) a)) in
    let to := match b with None => -1 | Some e => clip (-1) (len - 1) (from_end len e) end in
    progression from s (Z.to_nat ((from - to - s - 1) / - s))
  else [].
Definition sliced {A} (f : Z -> option Z -> option Z -> option Z -> A) (l : list val) (sl : slice) : A :=
  f (Z.of_nat (length l)) (written_bound (sl_start sl)) (written_bound (sl_end sl)) (written_bound (sl_stride sl)).

(** what an argument selects from a value; a slice of something that is not an array has the
    effect ([None]) that all that was selected in the step up to then is forgotten *)
Definition take_arg (back : bool) (v : val) (a : pval) : option (list val) :=
  match a with
  | PSlice sl =>
      match v with
      | VArr l => Some (flat_map (fun i => match nth_error l (Z.to_nat i) with Some x => [x] | None => [] end) (sliced slice_at l sl))
      | _ => None
      end
  | _ => Some (find_arg back v a)
  end.
Definition remembered (os : list (option (list val))) : list val :=
  fold_left (fun got o => match o with Some l => got ++ l | None => [] end) os [].

(** the position after the last would not be an int64 *)
Definition too_far (len : Z) (a b c : option Z) : bool :=
  match rev (slice_at len a b c) with i :: _ => max_int64 <? i + or_default 1 c | [] => false end.
Definition breaks (v : val) (a : pval) : bool :=
  match a, v with PSlice sl, VArr l => sliced too_far l sl | _, _ => false end.

(** what a step selects from a list of values, or [None] for the panic *)
Definition take_step (s : pstep) (vs : list val) : option (list val) :=
  let vs := if is_nest (st_op s) then flat_map containers vs else vs in
  match st_op s with
  | OpWild | OpNestWild => Some (flat_map offspring vs)
  | o => if existsb (fun v => existsb (breaks v) (st_args s)) vs then None
         else Some (remembered (flat_map (fun v => map (take_arg (counts_back o) v) (st_args s)) vs))
  end.
Fixpoint take_path (ss : path) (vs : list val) : option (list val) :=
  match ss with
  | [] => Some vs
  | s :: ss => match take_step s vs with Some l => take_path ss l | None => None end
  end.

(** no slice is applied to anything but an array *)
Definition misses (v : val) (a : pval) : bool := match a with PSlice _ => negb (IsArray v) | _ => false end.
Fixpoint slices_arrays (ss : path) (vs : list val) : bool :=
  match ss with
  | [] => true
  | s :: ss =>
      negb (existsb (fun v => existsb (misses v) (st_args s)) (if is_nest (st_op s) then flat_map containers vs else vs)) &&
      match take_step s vs with Some l => slices_arrays ss l | None => true end
  end.
