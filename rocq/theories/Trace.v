(** The trace of a run.  Models jsonString, mach/json.go:424-438, and what the loop of Run writes
    when the machine's field tracing is set, mach/run.go:484-504.  (Run itself never sets it,
    mach/run.go:127.) *)
From Verif Require Import Base Value Program Listing Machine.
Local Open Scope Z_scope.

(** Encode of an encoder of encoding/json: the text it writes, or the text of its error.  A parameter *)
Definition encoder : Type := val -> bytes + bytes.

(** mach/json.go:424-438.  strings.ReplaceAll with texts of one byte replaces bytes *)
Definition jsonString (E : encoder) (v : val) : bytes :=
  match E v with
  | inr e => b_of "!" ++ e
  | inl s =>
      let s := match rev s with c :: r => if c =? 10 then rev r else s | [] => s end in
      map (fun c => if c =? 10 then 32 else c) s
  end.

(** the loops of mach/run.go:488-493 and 497-502 *)
Fixpoint trace_values (E : encoder) (i : nat) (l : list val) : bytes :=
  match l with
  | [] => []
  | v :: l => (if Nat.eqb i 0 then [] else b_of ", ") ++ jsonString E v ++ trace_values E (S i) l
  end.

(** mach/run.go:484-504, for the order [ord] that has led to [m].  The values of the stack are those
    below sp, which is never more than its length *)
Definition trace_order (E : encoder) (ord : order) (m : mstate) : bytes :=
  num_GoString (order_op ord) ++ b_of " ->" ++ [10] ++
  [9] ++ b_of "[" ++ trace_values E 0 (g_list (m_out m)) ++ b_of "]" ++ [10] ++
  [9] ++ b_of "[" ++ trace_values E 0 (firstn (m_sp m) (m_stack m)) ++ b_of "]" ++ [10].

(** the loop of mach/run.go:128-505 with tracing: what is written, and what becomes of the machine *)
Fixpoint run_traced (E : encoder) (fuel : nat) (W : world) (p : program) (root : val) (m : mstate) : bytes * M mstate :=
  if m_pc m <? prog_size p then
    match fuel with
    | O => ([], OutOfFuel)
    | S n =>
      match index_Z (p_orders p) (m_pc m) with
      | None => ([], Panics)
      | Some ord =>
        match exec W p root ord (set_pc m (m_pc m + 1)) with
        | OK m' => let (text, r) := run_traced E n W p root m' in (trace_order E ord m' ++ text, r)
        | Fail e => ([], Fail e)
        | Panics => ([], Panics)
        | OutOfFuel => ([], OutOfFuel)
        end
      end
    end
  else ([], OK m).

(** Run with tracing, mach/run.go:126-510 *)
Definition Run_traced (E : encoder) (fuel : nat) (W : world) (t : nat) (p : program) (root : val) : bytes * M (list val) :=
  let (text, r) := run_traced E fuel W p root (m_init t root) in
  (text, let! m := r in OK (match m_out m with None => [] | Some l => l end)).
