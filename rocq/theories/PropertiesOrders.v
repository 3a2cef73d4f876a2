(** Properties of the operators of orders: which occur, and what the others would do (C58, C59). *)
From Verif Require Import Syntax SpecSyntax Value Program Machine SpecDoc SpecSelect SpecRun SpecCode SpecOp SpecExpr Api
  SpecGrammar SpecText SpecSem SpecIndex SpecOrders UsedProofs Examples.
Local Open Scope Z_scope.

(** ** C58 *)
(** Every order of a compiled path has one of 45 of the 48 operators: all but the one for errors,
    the conversion of indices and slicing. *)
Theorem C58_used : forall TX s ss jp, accepted TX s ss jp ->
  Forall (fun ord => exists o, op_of_num (order_op ord) = Some o /\ unused o = false) (p_orders (jp_prog jp)).
Proof. exact orders_used. Qed.
Print Assumptions C58_used.

(** Each of them does occur, all in the program of one path. *)
Theorem C58_all : exists TX s ss jp, accepted TX s ss jp /\ fits jp /\ forall o, unused o = false ->
  exists ord, In ord (p_orders (jp_prog jp)) /\ op_of_num (order_op ord) = Some o.
Proof. exact busy_orders. Qed.
Print Assumptions C58_all.

Example C58_ex : let s := b_of "$..a[(@.length-1)]" in accepted x_text s (steps_of s) (jp_of s) /\
  map (fun ord => op_of_num (order_op ord)) (p_orders (jp_prog (jp_of s))) =
    [Some OpNest; Some OpID; Some OpNestMember; Some OpRep; Some OpCurrent; Some OpID; Some OpDot; Some OpInt; Some OpSub;
     Some OpSelect].
Proof. split; [apply acceptedb_ok; vm_compute; reflexivity|vm_compute; reflexivity]. Qed.

(** ** C59 *)
(** What the machine's slicing operator, which no compiled path uses, would do: what a slice in a
    path does, except that one with stride 1 that starts after it ends is not empty: it
    panics. *)
Theorem C59_slice : forall W v s, sized v -> (forall sl, s = VSlice sl -> exists a b c, bounds_are sl a b c) ->
  (exists r, sliced v s r) /\
  forall r, sliced v s r <-> forall t, operates W t OpSlice [v; s] (let! x := r in OK (x, t)).
Proof. exact slice_exact. Qed.
Print Assumptions C59_slice.

(** The conversion of a value to an index, which no compiled path uses either. *)
Theorem C59_index : forall W v, (exists x, index_value W v x) /\
  forall x, index_value W v x <-> computes W OpExp [v] x.
Proof. exact exp_exact. Qed.
Print Assumptions C59_index.

Definition x_slice (a b c : Z) : val := VSlice (mkSlice (Some (BInt a)) (Some (BInt b)) (Some (BInt c))).
Ltac bounds_of := repeat split; first [constructor | cbn; lia].

Example C59_ex : let v := VArr [VInt64 4; VInt64 5; VInt64 6] in
  sized v /\ bounds_are (mkSlice (Some (BInt (-2))) (Some (BInt 9)) (Some (BInt 1))) (Some (-2)) (Some 9) (Some 1) /\
  operates x_world 0 OpSlice [v; x_slice (-2) 9 1] (OK (VArr [VInt64 5; VInt64 6], 0%nat)) /\
  operates x_world 0 OpSlice [v; x_slice 2 0 (-2)] (OK (VArr [VInt64 6], 0%nat)) /\
  operates x_world 0 OpSlice [v; x_slice 2 1 1] Panics.
Proof.
  split; [cbn; lia|]. split; [bounds_of|].
  split; [|split].
  - apply (operates_slice x_world 0 (VArr [VInt64 4; VInt64 5; VInt64 6]) (x_slice (-2) 9 1)). discriminate.
  - apply (operates_slice x_world 0 (VArr [VInt64 4; VInt64 5; VInt64 6]) (x_slice 2 0 (-2))). discriminate.
  - apply (operates_slice x_world 0 (VArr [VInt64 4; VInt64 5; VInt64 6]) (x_slice 2 1 1)). discriminate.
Qed.
Example C59_ex_index : computes x_world OpExp [VBool true] (VInt64 1) /\ computes x_world OpExp [VStr (b_of "a")] (VStr (b_of "a")).
Proof. split; intro t; apply operates_exp; reflexivity. Qed.
