(** A direct, recursive evaluator of paths and script expressions over their syntax
    trees.  It uses no program, instruction encoding, program counter or stack: it is
    the specification the compiled program is proved against (C13), and the
    place where the selectors and operators are proved to meet their own
    specifications. *)
From Verif Require Import Machine SpecSyntax.
Local Open Scope Z_scope.

(** apply an operator to the values of its operands *)
Definition apply_op (W : world) (t : nat) (o : op) (vs : list val) : M (val * nat) :=
  match o with
  | OpArray => OK (VArr vs, t)
  | OpCall =>
    match vs with
    | VName id :: args => call W t id args
    | _ => Panics
    end
  | _ =>
    match vs with
    | [v] => match unop W o v with Some r => OK (r, t) | None => Panics end
    | [a; b] => match binop W o a b with
                | Some r => let! v := r in OK (v, t)
                | None => Panics
                end
    | _ => Panics
    end
  end.

Section ev.
Variable W : world.
Variable root : val.

(** the value of an expression where @ is [dot] *)
Fixpoint ev (dot : val) (t : nat) (e : expr) {struct e} : M (val * nat) :=
  match e with
  | EInt z => OK (VInt64 z, t)
  | EFloat f => OK (VFloat f, t)
  | EStr s => OK (VStr s, t)
  | EBool b => OK (VBool b, t)
  | ENull => OK (VNil, t)
  | EName s => OK (VName s, t)
  | ECurrent => OK (dot, t)
  | ERoot => OK (root, t)
  | ERegexp p => OK (VRegexp p, t)
  | EInner o kids =>
    let! (vs, t1) :=
      (fix evs (t : nat) (es : list expr) : M (list val * nat) :=
         match es with
         | [] => OK ([], t)
         | e :: es' =>
           let! (v, t1) := ev dot t e in
           let! (vs, t2) := evs t1 es' in OK (v :: vs, t2)
         end) t kids in
    apply_op W t1 o vs
  end.

Fixpoint evs (dot : val) (t : nat) (es : list expr) : M (list val * nat) :=
  match es with
  | [] => OK ([], t)
  | e :: es' =>
    let! (v, t1) := ev dot t e in
    let! (vs, t2) := evs dot t1 es' in OK (v :: vs, t2)
  end.

(** the value of a step's argument *)
Definition ev_arg (dot : val) (t : nat) (a : pval) : M (val * nat) :=
  match a with
  | PInt z => OK (VInt64 z, t)
  | PStr s => OK (VStr s, t)
  | PName s => OK (VName s, t)
  | PSlice s => OK (VSlice s, t)
  | PExpr e => ev dot t e
  end.

Fixpoint ev_args (dot : val) (t : nat) (l : list pval) : M (list val * nat) :=
  match l with
  | [] => OK ([], t)
  | a :: r =>
    let! (v, t1) := ev_arg dot t a in
    let! (vs, t2) := ev_args dot t1 r in OK (v :: vs, t2)
  end.

(** the selection a member, subscript or union makes from one value *)
Definition select1 (sel : val) (neg : bool) (out : gslice) (v : val) : M gslice :=
  if isNothing sel then OK out else valsByKey W out v sel neg.

(** one iteration of a filter or recursive-descent step: @ is [dot] *)
Definition ev_body (s : pstep) (dot : val) (out : gslice) (t : nat) : M (gslice * nat) :=
  let! (vs, t1) := ev_args dot t (st_args s) in
  match st_op s, vs with
  | OpFilter, [v] | OpNestFilter, [v] =>
    OK (if negb (isNothing v) && cvb W v then g_append out dot else out, t1)
  | OpNestWild, [] => OK (valsWild W t1 out dot)
  | OpNestMember, [sel] => let! o := select1 sel false out dot in OK (o, t1)
  | OpNestSelect, [sel] => let! o := select1 sel true out dot in OK (o, t1)
  | OpNestUnion, sels => let! o := unionVals W out dot sels in OK (o, t1)
  | _, _ => Panics
  end.

Fixpoint ev_loop (s : pstep) (dots : list val) (out : gslice) (t : nat) : M (gslice * nat) :=
  match dots with
  | [] => OK (out, t)
  | d :: r => let! (out', t') := ev_body s d out t in ev_loop s r out' t'
  end.

(** The sequence of @ values of a loop.  When the producer sends nothing the
    body still runs once, with @ null, because the first receive ignores that
    the channel is closed (mach/run.go:545). *)
Definition loop_dots (vs : list val) : list val :=
  match vs with [] => [VNil] | _ => vs end.

Definition ev_loop_step (producer : nat -> list val -> list val * nat) (s : pstep)
    (out : gslice) (t : nat) : M (gslice * nat) :=
  match g_list out with
  | [] => OK (out, t)
  | l => let (vs, t1) := producer t l in ev_loop s (loop_dots vs) (Some []) t1
  end.

(** one step applied to the current output set *)
Definition ev_step (s : pstep) (out : gslice) (t : nat) : M (gslice * nat) :=
  match st_op s with
  | OpFilter => ev_loop_step (stepping W) s out t
  | OpNestMember | OpNestSelect | OpNestUnion | OpNestWild | OpNestFilter =>
    ev_loop_step (walker W) s out t
  | _ =>
    let! (vs, t1) := ev_args VNil t (st_args s) in
    match st_op s, vs with
    | OpWild, [] => applySelection t1 out (fun t v acc => OK (valsWild W t acc v))
    | OpMember, [sel] =>
      if isNothing sel then OK (Some [], t1)
      else applySelection t1 out (fun t v acc => let! g := valsByKey W acc v sel false in OK (g, t))
    | OpSelect, [sel] =>
      if isNothing sel then OK (Some [], t1)
      else applySelection t1 out (fun t v acc => let! g := valsByKey W acc v sel true in OK (g, t))
    | OpUnion, sels =>
      applySelection t1 out (fun t v acc => let! g := unionVals W acc v sels in OK (g, t))
    | _, _ => Panics
    end
  end.

Fixpoint ev_path (p : path) (out : gslice) (t : nat) : M (gslice * nat) :=
  match p with
  | [] => OK (out, t)
  | s :: r => let! (out', t') := ev_step s out t in ev_path r out' t'
  end.

(** the result of a path on the document [root] *)
Definition ev_run (t : nat) (p : path) : M (list val) :=
  let! (out, _) := ev_path p (Some [root]) t in OK (g_list out).

End ev.
