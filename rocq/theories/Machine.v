(** The abstract machine.  Models mach/run.go.

    Goroutines: [looptop] starts a producer goroutine and the loop receives from
    its channel.  Here the whole sequence a producer sends is computed when the
    loop starts and kept as the list of values not yet received; Conc.v models
    the goroutine and the channel themselves and proves that every schedule
    delivers this sequence.

    Maps: every [range] over a map takes the next number from the state's counter
    [m_tick] and visits the entries in the order the world gives for that
    number.  A producer's ranges are numbered when the loop starts.  As each range
    has its own number, quantifying over worlds covers every combination of
    orders. *)
From Verif Require Export Program Fns.
Local Open Scope Z_scope.

(** A Go slice []JSON as the machine uses it: nil or a list: e.g. vm.out, mach/run.go:25-36 *)
Definition gslice := option (list val).
(** the elements of a slice, mach/run.go:524-531 *)
Definition g_list (g : gslice) : list val := match g with Some l => l | None => [] end.
(** append(s, v), e.g. mach/run.go:698-712 *)
Definition g_append (g : gslice) (v : val) : gslice := Some (g_list g ++ [v]).

(** mach/run.go:25-36.  The program and root are parameters of the functions below
    and tracing is constantly false.  [m_values] has its top at the head. *)
Record mstate : Type := mkM {
  m_out : gslice;
  m_dot : val;
  m_stack : list val;
  m_sp : nat;
  m_pc : Z;
  m_values : list (list val);
  m_tick : nat
}.

(** the outcome of a step of mach/run.go:123-510 *)
Definition M (A : Type) := outcome rerr A.

(** assignments to the fields of mach/run.go:25-36 *)
Definition set_out (m : mstate) (o : gslice) : mstate :=
  mkM o (m_dot m) (m_stack m) (m_sp m) (m_pc m) (m_values m) (m_tick m).
Definition set_dot (m : mstate) (v : val) : mstate :=
  mkM (m_out m) v (m_stack m) (m_sp m) (m_pc m) (m_values m) (m_tick m).
Definition set_stack (m : mstate) (s : list val) (sp : nat) : mstate :=
  mkM (m_out m) (m_dot m) s sp (m_pc m) (m_values m) (m_tick m).
Definition set_pc (m : mstate) (pc : Z) : mstate :=
  mkM (m_out m) (m_dot m) (m_stack m) (m_sp m) pc (m_values m) (m_tick m).
Definition set_values (m : mstate) (vs : list (list val)) : mstate :=
  mkM (m_out m) (m_dot m) (m_stack m) (m_sp m) (m_pc m) vs (m_tick m).
Definition set_tick (m : mstate) (t : nat) : mstate :=
  mkM (m_out m) (m_dot m) (m_stack m) (m_sp m) (m_pc m) (m_values m) t.

(** mach/run.go:38-46 *)
Definition push (v : val) (m : mstate) : mstate :=
  if (length (m_stack m) <=? m_sp m)%nat then
    let s := m_stack m ++ [v] in set_stack m s (length s)
  else set_stack m (set_nth (m_sp m) v (m_stack m)) (S (m_sp m)).

(** mach/run.go:48-56 *)
Definition pop (m : mstate) : M (val * mstate) :=
  match m_sp m with
  | O => Panics
  | S sp =>
    match nth_error (m_stack m) sp with
    | None => Panics
    | Some v => OK (v, set_stack m (set_nth sp VNil (m_stack m)) sp)
    end
  end.

(** the loop of mach/run.go:66-68 *)
Fixpoint clear_from (i n : nat) (s : list val) : list val :=
  match n with
  | O => s
  | S n' => clear_from (S i) n' (set_nth i VNil s)
  end.

(** mach/run.go:58-70.  make([]JSON, n) panics for negative n. *)
Definition popN (n : Z) (m : mstate) : M (list val * mstate) :=
  if Z.of_nat (m_sp m) <? n then Panics
  else if n <? 0 then Panics
  else
    let k := Z.to_nat n in
    let sp := (m_sp m - k)%nat in
    OK (firstn k (skipn sp (m_stack m)), set_stack m (clear_from sp k (m_stack m)) sp).

(** mach/run.go:72-78 *)
Definition branch (p : program) (pc : Z) (m : mstate) : M mstate :=
  if (pc <=? 0) || (pc >? prog_size p) then Panics else OK (set_pc m pc).

(** mach/run.go:92-95 *)
Definition nothing : val := VErr KFailure.

(** mach/run.go:759-773.  Sprint of nil is "<nil>"; for a json.Number it is its text;
    the remaining kinds are left to the world. *)
Definition mapKey (W : world) (key : val) : bytes :=
  match key with
  | VStr s => s
  | VFloat f => sprint_int (f2i W f)
  | VName s => s
  | VNil => b_of "<nil>"
  | VBool b => sprint_bool b
  | VInt z | VInt64 z => sprint_int z
  | VNum s => s
  | _ => w_sprint W key
  end.

(** mach/run.go:775-806 *)
Definition valByKey (W : world) (src key : val) (negIndex : bool) : option val :=
  match src with
  | VObj m => lookup (mapKey W key) m
  | VArr l =>
    let len := Z.of_nat (length l) in
    let n := cvi W key in
    let n := if negIndex && (n <? 0) then wrap64 (n + len) else n in
    if (0 <=? n) && (n <? len) then index_Z l n else None
  | VNil => Some VNil
  | _ => None
  end.

(** mach/run.go:548-613; additions wrap as in int64 *)
Definition sliceEval (s : slice) (l : Z) : Z * Z * Z :=
  let stride := match sl_stride s with Some b => cvi_bound b | None => 1 end in
  let start := if stride <? 0 then l - 1 else 0 in
  let end_ := if stride <? 0 then - l - 1 else l in
  let start := match sl_start s with Some b => cvi_bound b | None => start end in
  let end_ := match sl_end s with Some b => cvi_bound b | None => end_ end in
  if stride <? 0 then
    let start :=
      if start >=? l then l - 1
      else if start <? 0 then
        let start := wrap64 (start + l) in if start <? 0 then -1 else start
      else start in
    let end_ :=
      if end_ >? l then l
      else if end_ <? 0 then
        let end_ := wrap64 (end_ + l) in if end_ <? 0 then -1 else end_
      else end_ in
    (start, end_, stride)
  else
    let start :=
      if start >? l then l
      else if start <? 0 then
        let start := wrap64 (start + l) in if start <? 0 then 0 else start
      else start in
    let end_ :=
      if end_ >? l then l
      else if end_ <? 0 then
        let end_ := wrap64 (end_ + l) in if end_ <? 0 then 0 else end_
      else end_ in
    (start, end_, stride).

(** The loops of mach/run.go:683-685,689-691,726-728,730-732: [up] selects the
    comparison (i < end or i > end).  src[i] panics when out of range and i += stride
    wraps around.  The fuel is one more than the length of src; [OutOfFuel] is proved
    impossible. *)
Fixpoint slice_loop (fuel : nat) (up : bool) (src : list val) (i end_ stride : Z)
    (vals : gslice) : M gslice :=
  if (if up then i <? end_ else i >? end_) then
    match fuel with
    | O => OutOfFuel
    | S n =>
      match index_Z src i with
      | None => Panics
      | Some v => slice_loop n up src (wrap64 (i + stride)) end_ stride (g_append vals v)
      end
    end
  else OK vals.

(** mach/run.go:675-696 *)
Definition slicing (src : list val) (s : slice) : M (list val) :=
  let '(start, end_, stride) := sliceEval s (Z.of_nat (length src)) in
  if stride =? 1 then
    if (start <=? end_) && (0 <=? start) && (end_ <=? Z.of_nat (length src))
    then OK (firstn (Z.to_nat (end_ - start)) (skipn (Z.to_nat start) src))
    else Panics
  else if stride >? 0 then
    let! g := slice_loop (S (length src)) true src start end_ stride (Some []) in OK (g_list g)
  else if stride <? 0 then
    let! g := slice_loop (S (length src)) false src start end_ stride (Some []) in OK (g_list g)
  else OK [].

(** mach/run.go:714-757.  Note that a slice applied to a non-array returns nil. *)
Definition valsByKey (W : world) (vals : gslice) (src key : val) (negIndex : bool) : M gslice :=
  match key with
  | VSlice s =>
    match src with
    | VArr l =>
      let '(start, end_, stride) := sliceEval s (Z.of_nat (length l)) in
      if stride >? 0 then slice_loop (S (length l)) true l start end_ stride vals
      else if stride <? 0 then slice_loop (S (length l)) false l start end_ stride vals
      else OK vals
    | _ => OK None
    end
  | _ =>
    match src with
    | VArr _ =>
      if isInt key then
        OK (match valByKey W src key negIndex with Some v => g_append vals v | None => vals end)
      else OK vals
    | VObj _ =>
      OK (match valByKey W src key false with Some v => g_append vals v | None => vals end)
    | _ => OK vals
    end
  end.

(** the appends of a whole list, for the loops that append each element:
    mach/run.go:698-712,714-757 *)
Definition g_appends (g : gslice) (l : list val) : gslice := fold_left g_append l g.

(** mach/run.go:698-712 *)
Definition valsWild (W : world) (t : nat) (vals : gslice) (src : val) : gslice * nat :=
  match src with
  | VArr l => (g_appends vals l, t)
  | VObj m => (g_appends vals (map snd (reorder (w_perm W t (length m)) m)), S t)
  | _ => (vals, t)
  end.

(** the loop of mach/run.go:188-192 and 215-219 *)
Fixpoint unionVals (W : world) (acc : gslice) (v : val) (sels : list val) : M gslice :=
  match sels with
  | [] => OK acc
  | sel :: r =>
    let! acc' := if isNothing sel then OK acc else valsByKey W acc v sel true in
    unionVals W acc' v r
  end.

(** mach/run.go:524-531; [f] may panic and may range over maps *)
Fixpoint applySelection_loop (f : nat -> val -> gslice -> M (gslice * nat)) (t : nat)
    (src : list val) (vals : gslice) : M (gslice * nat) :=
  match src with
  | [] => OK (vals, t)
  | el :: r => let! (vals', t') := f t el vals in applySelection_loop f t' r vals'
  end.
Definition applySelection (t : nat) (src : gslice)
    (f : nat -> val -> gslice -> M (gslice * nat)) : M (gslice * nat) :=
  applySelection_loop f t (g_list src) (Some []).

(** mach/run.go:808-823: the values sent, in order *)
Fixpoint stepping (W : world) (t : nat) (vals : list val) : list val * nat :=
  match vals with
  | [] => ([], t)
  | v :: r =>
    match v with
    | VArr l => let (s, t') := stepping W t r in (l ++ s, t')
    | VObj m =>
      let (s, t') := stepping W (S t) r in
      (map snd (reorder (w_perm W t (length m)) m) ++ s, t')
    | _ => stepping W t r
    end
  end.

(** mach/run.go:837-857: the values sent, in order.  The numbers of the ranges are
    assigned in the order of the association list, not the order of the visits;
    see the head of this file. *)
Fixpoint walkdown (W : world) (t : nat) (v : val) {struct v} : list val * nat :=
  match v with
  | VObj m =>
    let (subs, t') :=
      (fix go (t : nat) (m : list (bytes * val)) : list (list val) * nat :=
         match m with
         | [] => ([], t)
         | (_, x) :: m' =>
           if IsStructure x then
             let (s, t1) := walkdown W t x in
             let (r, t2) := go t1 m' in (s :: r, t2)
           else let (r, t1) := go t m' in ([] :: r, t1)
         end) (S t) m in
    (v :: concat (reorder (w_perm W t (length m)) subs), t')
  | VArr l =>
    let (subs, t') :=
      (fix go (t : nat) (l : list val) : list (list val) * nat :=
         match l with
         | [] => ([], t)
         | x :: l' =>
           if IsStructure x then
             let (s, t1) := walkdown W t x in
             let (r, t2) := go t1 l' in (s :: r, t2)
           else let (r, t1) := go t l' in ([] :: r, t1)
         end) t l in
    (v :: concat subs, t')
  | _ => ([v], t)
  end.

(** mach/run.go:825-835 *)
Fixpoint walker (W : world) (t : nat) (vals : list val) : list val * nat :=
  match vals with
  | [] => ([], t)
  | v :: r =>
    if IsStructure v then
      let (s, t1) := walkdown W t v in
      let (s', t2) := walker W t1 r in (s ++ s', t2)
    else walker W t r
  end.

(** The receive [js, more := <-values] from a producer with the given values left. After the
    last value the channel is closed and yields nil. mach/run.go:227,545 *)
Definition recv (vs : list val) : val * bool * list val :=
  match vs with
  | [] => (VNil, false, [])
  | v :: r => (v, true, r)
  end.

(** mach/run.go:533-546 *)
Definition looptop (p : program) (producer : nat -> list val -> list val * nat) (epc : Z)
    (m : mstate) : M mstate :=
  match g_list (m_out m) with
  | [] => branch p epc m
  | out =>
    let (vs, t) := producer (m_tick m) out in
    let '(v, _, vs') := recv vs in
    OK (mkM (Some []) v (m_stack m) (m_sp m) (m_pc m) (vs' :: m_values m) t)
  end.

(** mach/run.go:226-236, with popInput (88-90) *)
Definition rep (p : program) (pc : option Z) (m : mstate) : M mstate :=
  match m_values m with
  | [] => Panics
  | vs :: vss =>
    let '(v, more, vs') := recv vs in
    if negb more then OK (set_dot (set_values m vss) VNil)
    else
      match pc with
      | None => Panics
      | Some pc => branch p pc (set_dot (set_values m (vs' :: vss)) v)
      end
  end.

(** mach/run.go:615-628, with valsOK (113-121) *)
Definition arith (W : world) (a b : val) (intf : Z -> Z -> Z) (floatf : f64 -> f64 -> f64) : val :=
  if isNothing a || isNothing b then nothing
  else if negb (isArith a && isArith b) then nothing
  else if isFloat a || isFloat b then VFloat (floatf (cvf W a) (cvf W b))
  else VInt64 (intf (cvi W a) (cvi W b)).

(** mach/run.go:630-651 *)
Definition divide (W : world) (a b : val) (intf : Z -> Z -> Z) (floatf : f64 -> f64 -> f64) : val :=
  if isNothing a || isNothing b then nothing
  else if negb (isArith a && isArith b) then nothing
  else if isFloat a || isFloat b then
    if f_eqb (cvf W b) f_zero then nothing
    else VFloat (floatf (cvf W a) (cvf W b))
  else
    if cvi W b =? 0 then nothing
    else VInt64 (intf (cvi W a) (cvi W b)).

(** mach/run.go:653-673 *)
Definition relation (W : world) (a b : val) (intf : Z -> Z -> bool) (floatf : f64 -> f64 -> bool)
    (stringf : bytes -> bytes -> bool) : val :=
  if isNothing a || isNothing b then nothing
  else if negb (isSimple a && isSimple b) then VBool false
  else if isString a || isString b then
    if negb (isString a && isString b) then VBool false
    else VBool (stringf (cvs W a) (cvs W b))
  else if isFloat a || isFloat b then VBool (floatf (cvf W a) (cvf W b))
  else VBool (intf (cvi W a) (cvi W b)).

(** int64 arithmetic: +, -, * wrap; / and % truncate toward zero (the quotient of the least
    integer by -1 wraps): mach/run.go:353-388 *)
Definition add64 (i j : Z) : Z := wrap64 (i + j).
Definition sub64 (i j : Z) : Z := wrap64 (i - j).
Definition mul64 (i j : Z) : Z := wrap64 (i * j).
Definition quot64 (i j : Z) : Z := wrap64 (Z.quot i j).
Definition rem64 (i j : Z) : Z := Z.rem i j.

(** mach/run.go:243-283, after the operands are popped *)
Definition op_dot (W : world) (val_ sel : val) : M val :=
  if isNothing sel || isNothing val_ then OK nothing
  else
    match sel with
    | VName key =>
      if beqb key (b_of "length") then
        OK (match val_ with
            | VArr l => VInt64 (Z.of_nat (length l))
            | VObj m => VInt64 (Z.of_nat (length m))
            | VStr s => VInt64 (rune_count s)
            | _ => nothing
            end)
      else
        OK (match val_ with
            | VObj _ => match valByKey W val_ sel false with Some v => v | None => nothing end
            | _ => nothing
            end)
    | _ => Panics
    end.

(** mach/run.go:284-316 *)
Definition op_index (W : world) (val_ index : val) : M val :=
  if isNothing val_ || isNothing index then OK nothing
  else
    match val_ with
    | VArr l =>
      let len := Z.of_nat (length l) in
      let sel := cvi W index in
      let sel := if sel <? 0 then wrap64 (sel + len) else sel in
      if (sel <? 0) || (sel >=? len) then OK nothing
      else match index_Z l sel with Some v => OK v | None => Panics end
    | VObj _ => OK (match valByKey W val_ index true with Some v => v | None => nothing end)
    | _ => OK nothing
    end.

(** mach/run.go:317-332 *)
Definition op_slice (a b : val) : M val :=
  if isNothing a || isNothing b then OK nothing
  else
    match b, a with
    | VSlice s, VArr l => let! r := slicing l s in OK (VArr r)
    | _, _ => OK (VArr [])
    end.

(** mach/run.go:333-344 *)
Definition op_or (W : world) (a b : val) : val :=
  if isNothing a && isNothing b then nothing
  else if negb (isNothing a) && cvb W a then a
  else b.

(** mach/run.go:345-352 *)
Definition op_and (W : world) (a b : val) : val :=
  if isNothing a || negb (cvb W a) then a else b.

(** mach/run.go:389-399, with valOK (103-111) *)
Definition op_neg (W : world) (v : val) : val :=
  if isNothing v then nothing
  else match v with
       | VFloat f => VFloat (f_neg f)
       | _ => VInt64 (neg64 (cvi W v))
       end.

(** mach/run.go:433-459 *)
Definition op_match (W : world) (a b : val) : M val :=
  if isNothing a || isNothing b then OK nothing
  else
    let! re := match b with
               | VRegexp p => OK p
               | VStr s => if re_ok W s then OK s else Fail (RBadRegexp s)
               | _ => Fail (RMatchRight b)
               end in
    match a with
    | VStr s => OK (VBool (w_re_match W re s))
    | _ => Fail (RMatchLeft a)
    end.

(** mach/run.go:460-471; [isIn] is ord.op() == OpIn *)
Definition op_in (W : world) (isIn : bool) (a b : val) : M val :=
  if isNothing a || isNothing b then OK nothing
  else
    match b with
    | VArr l => OK (VBool (searchJSON W l a isIn))
    | _ => Fail (RInRight (negb isIn) b)
    end.

(** Operators that pop b, then a, and push one value (mach/run.go:243-429,433-471).
    [None]: not such an operator. *)
Definition binop (W : world) (o : op) (a b : val) : option (M val) :=
  match o with
  | OpDot => Some (op_dot W a b)
  | OpIndex => Some (op_index W a b)
  | OpSlice => Some (op_slice a b)
  | OpOr => Some (OK (op_or W a b))
  | OpAnd => Some (OK (op_and W a b))
  | OpAdd => Some (OK (if isNothing a || isNothing b then nothing else arith W a b add64 f_add))
  | OpSub => Some (OK (if isNothing a || isNothing b then nothing else arith W a b sub64 f_sub))
  | OpMul => Some (OK (if isNothing a || isNothing b then nothing else arith W a b mul64 f_mul))
  | OpDiv => Some (OK (if isNothing a || isNothing b then nothing else divide W a b quot64 f_div))
  | OpMod => Some (OK (if isNothing a || isNothing b then nothing else divide W a b rem64 f_mod))
  | OpEQ => Some (OK (VBool (eqVal W a b)))
  | OpNE => Some (OK (VBool (negb (eqVal W a b))))
  | OpLT => Some (OK (relation W a b Z.ltb f_ltb bltb))
  | OpLE => Some (OK (relation W a b Z.leb f_leb bleb))
  | OpGE => Some (OK (relation W a b Z.geb (fun x y => f_leb y x) (fun s t => bleb t s)))
  | OpGT => Some (OK (relation W a b Z.gtb (fun x y => f_ltb y x) (fun s t => bltb t s)))
  | OpMatch => Some (op_match W a b)
  | OpIn => Some (op_in W true a b)
  | OpNin => Some (op_in W false a b)
  | _ => None
  end.

(** Operators that pop one value and push one (mach/run.go:155-166,389-401) *)
Definition unop (W : world) (o : op) (v : val) : option val :=
  match o with
  | OpExp => Some (if isNothing v then nothing
                   else if isString v || isInt v then v else VInt64 (cvi W v))
  | OpNeg => Some (op_neg W v)
  | OpNot => Some (VBool (negb (cvb W v)))
  | _ => None
  end.

(** p.value(ord.index()), with both panics: mach/run.go:128-154, mach/program.go:48-55,132-135
    *)
Definition const_of (p : program) (o : order) : M cval :=
  match order_index o with
  | None => Panics
  | Some i => match prog_value p i with Some c => OK c | None => Panics end
  end.

(** One iteration of the loop of mach/run.go:128-505 for order [ord], after vm.pc++.
    For OpID Go pushes the constant itself: a NameVal, the only kind of constant
    compiled for that operator. *)
Definition exec (W : world) (p : program) (root : val) (ord : order) (m : mstate) : M mstate :=
  match op_of_num (order_op ord) with
  | None => Fail (RUnimplemented (order_op ord) (m_pc m - 1))
  | Some o =>
    match o with
    | OpInt =>
      if order_is_small ord then OK (push (VInt64 (order_small_int ord)) m)
      else let! c := const_of p ord in OK (push (cval_value c) m)
    | OpBool =>
      if order_is_small ord then OK (push (VBool (negb (order_small_int ord =? 0))) m)
      else Panics
    | OpNull => OK (push VNil m)
    | OpReal | OpRE | OpBounds | OpString | OpID =>
      let! c := const_of p ord in OK (push (cval_value c) m)
    | OpExp | OpNeg | OpNot =>
      let! (v, m1) := pop m in
      match unop W o v with
      | Some r => OK (push r m1)
      | None => Panics
      end
    | OpWild =>
      let! (out, t) := applySelection (m_tick m) (m_out m)
                         (fun t v acc => OK (valsWild W t acc v)) in
      OK (set_tick (set_out m out) t)
    | OpMember | OpSelect =>
      let neg := op_beq o OpSelect in
      let! (sel, m1) := pop m in
      if isNothing sel then OK (set_out m1 (Some []))
      else
        let! (out, t) := applySelection (m_tick m1) (m_out m1)
                           (fun t v acc => let! g := valsByKey W acc v sel neg in OK (g, t)) in
        OK (set_tick (set_out m1 out) t)
    | OpUnion =>
      let! (sels, m1) := popN (order_small_int ord) m in
      let! (out, t) := applySelection (m_tick m1) (m_out m1)
                         (fun t v acc => let! g := unionVals W acc v sels in OK (g, t)) in
      OK (set_tick (set_out m1 out) t)
    | OpFilter | OpNestFilter =>
      let! (v, m1) := pop m in
      if negb (isNothing v) && cvb W v then OK (set_out m1 (g_append (m_out m1) (m_dot m1)))
      else OK m1
    | OpNestWild =>
      let (out, t) := valsWild W (m_tick m) (m_out m) (m_dot m) in
      OK (set_tick (set_out m out) t)
    | OpNestMember | OpNestSelect =>
      let neg := op_beq o OpNestSelect in
      let! (sel, m1) := pop m in
      if isNothing sel then OK m1
      else
        let! out := valsByKey W (m_out m1) (m_dot m1) sel neg in
        OK (set_out m1 out)
    | OpNestUnion =>
      let! (sels, m1) := popN (order_small_int ord) m in
      let! out := unionVals W (m_out m1) (m_dot m1) sels in
      OK (set_out m1 out)
    | OpFor =>
      match order_pc ord with
      | None => Panics
      | Some epc => looptop p (stepping W) epc m
      end
    | OpNest =>
      match order_pc ord with
      | None => Panics
      | Some epc => looptop p (walker W) epc m
      end
    | OpRep => rep p (order_pc ord) m
    | OpRoot => OK (push root m)
    | OpCurrent => OK (push (m_dot m) m)
    | OpArray =>
      let! (a, m1) := popN (order_small_int ord) m in
      OK (push (VArr a) m1)
    | OpCall =>
      let! (args, m1) := popN (order_small_int ord) m in
      match args with
      | VName id :: rest =>
        let! (r, t) := call W (m_tick m1) id rest in
        OK (push r (set_tick m1 t))
      | _ => Panics
      end
    | OpDot | OpIndex | OpSlice | OpOr | OpAnd | OpAdd | OpSub | OpMul | OpDiv | OpMod
    | OpEQ | OpNE | OpLT | OpLE | OpGE | OpGT | OpMatch | OpIn | OpNin =>
      let! (b, m1) := pop m in
      let! (a, m2) := pop m1 in
      match binop W o a b with
      | Some r => let! v := r in OK (push v m2)
      | None => Panics
      end
    | OpError => Fail (RUnimplemented (order_op ord) (m_pc m - 1))
    end
  end.

(** the loop of mach/run.go:128-505 *)
Fixpoint run_loop (fuel : nat) (W : world) (p : program) (root : val) (m : mstate) : M mstate :=
  if m_pc m <? prog_size p then
    match fuel with
    | O => OutOfFuel
    | S n =>
      match index_Z (p_orders p) (m_pc m) with
      | None => Panics
      | Some ord =>
        let! m' := exec W p root ord (set_pc m (m_pc m + 1)) in
        run_loop n W p root m'
      end
    end
  else OK m.

(** the initial state, mach/run.go:127 *)
Definition m_init (t : nat) (root : val) : mstate :=
  mkM (Some [root]) VNil [] 0%nat 0 [] t.

(** mach/run.go:123-510, with fuel.  [t] numbers the first range over a map.  The
    result is the slice returned, never nil. *)
Definition Run (fuel : nat) (W : world) (t : nat) (p : program) (root : val) : M (list val) :=
  let! m := run_loop fuel W p root (m_init t root) in
  OK (match m_out m with None => [] | Some l => l end).

(** What Run returns to its caller, mach/run.go:126 with the return statements at 449, 452,
    458, 470, 478, 482, 506-509: a slice, which may be nil, and an error, which may be nil.
    Errors are returned, so no [Fail] remains. *)
Definition Run_go (fuel : nat) (W : world) (t : nat) (p : program) (root : val)
    : outcome Empty_set (gslice * option rerr) :=
  match run_loop fuel W p root (m_init t root) with
  | OK m =>
    match m_out m with
    | None => OK (Some [], None)
    | Some out => OK (Some out, None)
    end
  | Fail e => OK (None, Some e)
  | Panics => Panics
  | OutOfFuel => OutOfFuel
  end.
