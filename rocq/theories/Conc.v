(** The machine and its goroutines.  Models looptop, stepping, walker, walkdown and the orders
    OpFor, OpNest and OpRep of mach/run.go as processes that communicate over unbuffered
    channels; all other orders are executed as in Machine.v.

    A state has the machine and every producer it has started.  A step is taken by the machine
    or by one of the producers; a value is passed when the machine is waiting for it and the
    producer is sending it, in one step of both.  Which step is taken next is not determined.

    As in Machine.v each range over a map has a number and the world gives its order: the
    numbers of a producer's ranges are fixed when it is started. *)
From Verif Require Export Machine.
Local Open Scope Z_scope.

(** the number of ranges over maps in a call of walkdown, and in a call of stepping:
    mach/run.go:837-857, 808-823 *)
Fixpoint walk_ranges (v : val) : nat :=
  match v with
  | VArr l => list_sum (map walk_ranges l)
  | VObj m => S (list_sum (map (fun kv => walk_ranges (snd kv)) m))
  | _ => 0
  end.
Definition step_ranges (vals : list val) : nat :=
  list_sum (map (fun v => match v with VObj _ => 1%nat | _ => 0%nat end) vals).

(** values to be walked, each with the number of its first range: the values of
    mach/run.go:825-857 *)
Fixpoint numbered (t : nat) (vals : list val) : list (nat * val) :=
  match vals with
  | [] => []
  | v :: r => (t, v) :: numbered (t + walk_ranges v) r
  end.

(** What a producer has still to do, innermost call or loop first. mach/run.go:808-857 *)
Inductive frame : Type :=
| FEach (rest : list (nat * val))     (* the loops of run.go:830-834, 842-846, 849-853: the values to come *)
| FBody (t : nat) (v : val)           (* run.go:839-856: a call of walkdown after it has sent its value *)
| FStep (t : nat) (rest : list val)   (* the loop of run.go:811-822 *)
| FSend (rest : list val).            (* the loops of run.go:814-816 and 818-820 *)

(** mach/run.go:808-857 *)
Inductive producer : Type :=
| PRun (k : list frame)
| PSend (v : val) (k : list frame)    (* values <- v *)
| PClosed.                            (* the channel is closed, the goroutine has ended *)

(** one step of a producer on its own; [None] if it is sending or has ended: mach/run.go:808-857
    *)
Definition prod_step (W : world) (q : producer) : option producer :=
  match q with
  | PRun k =>
    Some
      match k with
      | [] => PClosed
      | FEach [] :: k' => PRun k'
      | FEach ((t, v) :: r) :: k' =>
        if IsStructure v then PSend v (FBody t v :: FEach r :: k') else PRun (FEach r :: k')
      | FBody t v :: k' =>
        match v with
        | VObj m => PRun (FEach (reorder (w_perm W t (length m)) (numbered (S t) (map snd m))) :: k')
        | VArr l => PRun (FEach (numbered t l) :: k')
        | _ => PRun k'
        end
      | FStep _ [] :: k' => PRun k'
      | FStep t (v :: r) :: k' =>
        match v with
        | VArr l => PRun (FSend l :: FStep t r :: k')
        | VObj m => PRun (FSend (map snd (reorder (w_perm W t (length m)) m)) :: FStep (S t) r :: k')
        | _ => PRun (FStep t r :: k')
        end
      | FSend [] :: k' => PRun k'
      | FSend (v :: r) :: k' => PSend v (FSend r :: k')
      end
  | PSend _ _ | PClosed => None
  end.

(** the start of stepping and of walker on the current results, and the number of ranges: the go
    statement of mach/run.go:534-546 *)
Definition start (o : op) (t : nat) (vals : list val) : producer * nat :=
  match o with
  | OpFor => (PRun [FStep t vals], (t + step_ranges vals)%nat)
  | _ => (PRun [FEach (numbered t vals)], (t + list_sum (map walk_ranges vals))%nat)
  end.

(** What the machine is doing: executing the order at its pc; receiving in looptop (run.go:545);
    receiving for an order OpRep (run.go:227); or it has returned or panicked. *)
Inductive mode : Type :=
| CRun
| CFirst
| CRep (ord : order)
| CDone (r : outcome rerr (list val)).

(** [c_chans] is vm.values, as numbers of producers, top first. The field [m_values] of [c_m] is
    not used. mach/run.go:25-36, with the goroutines started at 534-546 *)
Record cstate : Type := mkC {
  c_m : mstate;
  c_chans : list nat;
  c_mode : mode;
  c_prods : list producer
}.

(** the return statements of mach/run.go:123-510 *)
Definition done (c : cstate) (r : outcome rerr (list val)) : cstate :=
  mkC (c_m c) (c_chans c) (CDone r) (c_prods c).

(** continue with the outcome of an order: the loop of mach/run.go:128-505 *)
Definition after (c : cstate) (r : M mstate) : cstate :=
  match r with
  | OK m => mkC m (c_chans c) CRun (c_prods c)
  | Fail e => done c (Fail e)
  | Panics => done c Panics
  | OutOfFuel => done c OutOfFuel
  end.

(** run.go:534-546, without the receive *)
Definition c_looptop (p : program) (o : op) (epc : Z) (c : cstate) : cstate :=
  let m := c_m c in
  match g_list (m_out m) with
  | [] => after c (branch p epc m)
  | out =>
    let (q, t) := start o (m_tick m) out in
    mkC (set_tick (set_out m (Some [])) t) (length (c_prods c) :: c_chans c) CFirst (c_prods c ++ [q])
  end.

(** the order [ord] at the machine's pc, after vm.pc++: mach/run.go:128-505 *)
Definition c_exec (W : world) (p : program) (root : val) (ord : order) (c : cstate) : cstate :=
  match op_of_num (order_op ord) with
  | Some OpFor =>
    match order_pc ord with Some epc => c_looptop p OpFor epc c | None => done c Panics end
  | Some OpNest =>
    match order_pc ord with Some epc => c_looptop p OpNest epc c | None => done c Panics end
  | Some OpRep =>
    match c_chans c with
    | [] => done c Panics
    | _ => mkC (c_m c) (c_chans c) (CRep ord) (c_prods c)
    end
  | _ => after c (exec W p root ord (c_m c))
  end.

(** One step of the machine; [None] if it has to wait or has returned. mach/run.go:123-510 *)
Definition main_step (W : world) (p : program) (root : val) (c : cstate) : option cstate :=
  let m := c_m c in
  match c_mode c with
  | CRun =>
    Some
      (if m_pc m <? prog_size p then
         match index_Z (p_orders p) (m_pc m) with
         | None => done c Panics
         | Some ord => c_exec W p root ord (mkC (set_pc m (m_pc m + 1)) (c_chans c) CRun (c_prods c))
         end
       else done c (OK (match m_out m with None => [] | Some l => l end)))
  | CFirst =>
    match c_chans c with
    | [] => None
    | i :: _ =>
      match nth_error (c_prods c) i with
      | Some (PSend v k) => Some (mkC (set_dot m v) (c_chans c) CRun (set_nth i (PRun k) (c_prods c)))
      | Some PClosed => Some (mkC (set_dot m VNil) (c_chans c) CRun (c_prods c))
      | _ => None
      end
    end
  | CRep ord =>
    match c_chans c with
    | [] => None
    | i :: r =>
      match nth_error (c_prods c) i with
      | Some (PSend v k) =>
        let c' := mkC (set_dot m v) (c_chans c) CRun (set_nth i (PRun k) (c_prods c)) in
        Some match order_pc ord with
             | None => done c' Panics
             | Some pc => after c' (branch p pc (c_m c'))
             end
      | Some PClosed => Some (mkC (set_dot m VNil) r CRun (c_prods c))
      | _ => None
      end
    end
  | CDone _ => None
  end.

(** One step of the machine or of a producer. The goroutines of mach/run.go:123-546,808-857 *)
Inductive cstep (W : world) (p : program) (root : val) : cstate -> cstate -> Prop :=
| CMain : forall c c', main_step W p root c = Some c' -> cstep W p root c c'
| CProd : forall c i q q', nth_error (c_prods c) i = Some q -> prod_step W q = Some q' ->
    cstep W p root c (mkC (c_m c) (c_chans c) (c_mode c) (set_nth i q' (c_prods c))).

(** run.go:127 *)
Definition c_init (t : nat) (root : val) : cstate := mkC (m_init t root) [] CRun [].

(** The states of an evaluation under some schedule. mach/run.go:123-546,808-857 *)
Inductive scheduled (W : world) (p : program) (root : val) (t : nat) : cstate -> Prop :=
| SdInit : scheduled W p root t (c_init t root)
| SdStep : forall c c', scheduled W p root t c -> cstep W p root c c' -> scheduled W p root t c'.
