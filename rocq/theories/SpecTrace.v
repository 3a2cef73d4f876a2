(** What a trace is to show.  A specification. *)
From Verif Require Import Base Value Machine SpecRun.
Local Open Scope Z_scope.

(** texts with ", " in between *)
Fixpoint commas (ts : list bytes) : bytes :=
  match ts with
  | [] => []
  | [t] => t
  | t :: ts => t ++ b_of ", " ++ commas ts
  end.
(** an indented line with a list *)
Definition list_line (ts : list bytes) : bytes := [9] ++ b_of "[" ++ commas ts ++ b_of "]" ++ [10].

(** the machine executes no order from [m] on: it has ended, or the next order fails *)
Definition stops (W : world) (p : program) (root : val) (m : mstate) : Prop := forall n m', steps W p root n m m' -> n = 0%nat.

(** the texts of the encoder's errors are single lines *)
Definition quiet (E : val -> bytes + bytes) : Prop := forall v e, E v = inr e -> ~ In 10 e.
