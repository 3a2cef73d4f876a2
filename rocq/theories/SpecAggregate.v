(** Sums and products of lists of integers.  A specification. *)
From Verif Require Import Base.
Local Open Scope Z_scope.

Definition total (l : list Z) : Z := fold_right Z.add 0 l.
Definition product (l : list Z) : Z := fold_right Z.mul 1 l.

(** no sum of some of them exceeds 2^53 in size *)
Definition sums_small (l : list Z) : Prop := total (map Z.abs l) <= 2 ^ 53.
(** no product of some of them exceeds 2^53 in size *)
Definition products_small (l : list Z) : Prop := product (map (fun z => Z.max 1 (Z.abs z)) l) <= 2 ^ 53.
