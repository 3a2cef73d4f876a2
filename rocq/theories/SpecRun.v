(** Evaluations observed from outside: what the machine does with the compiled form of
    some steps, started on a given selection. *)
From Coq Require Import Permutation.
From Verif Require Import Syntax Coder Machine.
Local Open Scope Z_scope.

(** the machine about to execute a program, on the selection [cands] (mach/run.go:127 for
    [cands] = [root]); [t] numbers the next range over a map *)
Definition m_start (t : nat) (cands : list val) : mstate :=
  mkM (Some cands) VNil [] 0%nat 0 [] t.

(** the selection a machine has made, and the number of its next range *)
Definition m_result (m : mstate) : list val * nat := (g_list (m_out m), m_tick m).

(** [runs W root t cands ss r]: the steps [ss], compiled, with $ bound to [root] and
    started on the selection [cands], end with outcome [r].  The program must be small
    enough for its branch targets and operand counts to fit (see C12). *)
Definition runs (W : world) (root : val) (t : nat) (cands : list val) (ss : path)
    (r : outcome rerr (list val * nat)) : Prop :=
  exists p, Compile ss = OK p /\ prog_size p < indexTop /\ r <> OutOfFuel /\
  exists fuel, (let! m := run_loop fuel W p root (m_start t cands) in OK (m_result m)) = r.

(** [steps W p root n m m']: the machine goes from [m] to [m'] by executing [n] orders *)
Inductive steps (W : world) (p : program) (root : val) : nat -> mstate -> mstate -> Prop :=
| StNone : forall m, steps W p root 0 m m
| StOne : forall n m ord m1 m', m_pc m < prog_size p -> index_Z (p_orders p) (m_pc m) = Some ord ->
    exec W p root ord (set_pc m (m_pc m + 1)) = OK m1 -> steps W p root n m1 m' ->
    steps W p root (S n) m m'.

(** whether executing [ord], from [m] to [m1], received a value to iterate over: the first
    value of an iteration opens a level of iteration, the last level stays open for each
    further value *)
Definition received (ord : order) (m m1 : mstate) : bool :=
  match op_of_num (order_op ord) with
  | Some OpFor | Some OpNest => (length (m_values m1) =? S (length (m_values m)))%nat
  | Some OpRep => (length (m_values m1) =? length (m_values m))%nat
  | _ => false
  end.

(** [counts W p root n i m m']: as [steps], and [i] values are received on the way *)
Inductive counts (W : world) (p : program) (root : val) : nat -> nat -> mstate -> mstate -> Prop :=
| CnNone : forall m, counts W p root 0 0 m m
| CnOne : forall n i m ord m1 m', m_pc m < prog_size p -> index_Z (p_orders p) (m_pc m) = Some ord ->
    exec W p root ord (set_pc m (m_pc m + 1)) = OK m1 -> counts W p root n i m1 m' ->
    counts W p root (S n) (if received ord m m1 then S i else i) m m'.

(** every range over a map visits each entry exactly once *)
Definition orders_ok (W : world) : Prop :=
  forall t n, Permutation (w_perm W t n) (seq 0 n).

(** the outcome of a step on each of some candidates alone, one after the other *)
Inductive one_by_one (W : world) (root : val) (s : pstep) : nat -> list val -> list val -> nat -> Prop :=
| ObNil : forall t, one_by_one W root s t [] [] t
| ObCons : forall t v l t1 cands r t2, runs W root t [v] [s] (OK (l, t1)) ->
    one_by_one W root s t1 cands r t2 -> one_by_one W root s t (v :: cands) (l ++ r) t2.
