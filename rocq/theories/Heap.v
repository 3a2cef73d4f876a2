(** Evaluations and the storage they share.  Models the slices, arrays and maps of mach/run.go as
    references to a common store: every store, append and allocation of Run, push, pop, popN,
    applySelection, valsWild, valsByKey, looptop, pushInput and popInput is explicit, and the
    producers read the arrays and maps they range over one element at a time.  Any number of
    evaluations, each with its goroutines, are interleaved.

    Simplifications.  An order is executed in one step, and so is one iteration of a producer.
    What an operator or a function of expressions computes from its operands is the value given by
    Machine.v; its representation is made of parts of its operands and of new storage, in any
    combination: no such operator or function stores into its operands (mach/run.go:131-166 and
    237-480, mach/fns.go, mach/json.go contain no other assignment to an element or a member).
    When append has to move an array, the new capacity is arbitrary.  A program is one block of the
    store, read in every step.  A panic leaves the store as it was before the order. *)
From Verif Require Export Conc.
Local Open Scope Z_scope.

(** a slice: the array that holds its elements, the first one, length and capacity: the []JSON
    of mach/run.go:25-36 *)
Record slc : Type := mkSl { s_addr : nat; s_off : nat; s_len : nat; s_cap : nat }.

(** the JSON (interface value) of mach/json.go:13-15; arrays and maps are references *)
Inductive hval : Type :=
| HAtom (v : val)        (* anything that is not an array or an object *)
| HArr (s : slc)         (* []JSON *)
| HMap (a : nat)         (* map[string]JSON *)
| HChan (i : nat).       (* a channel, by the number of its producer; only in vm.values *)

(** the storage of the arrays and maps of mach/json.go:13-15 *)
Inductive block : Type :=
| BArr (l : list hval)
| BMap (m : list (bytes * hval))
| BProg (p : program).          (* a compiled program, mach/program.go:109-112 *)

(** storage of the values of mach/run.go *)
Definition heap := list block.

(** the elements of a slice: e.g. the ranges over vals of mach/run.go:808-857 *)
Definition cells (h : heap) (s : slc) : option (list hval) :=
  match nth_error h (s_addr s) with
  | Some (BArr l) =>
    if ((s_off s + s_cap s <=? length l) && (s_len s <=? s_cap s))%nat
    then Some (firstn (s_len s) (skipn (s_off s) l)) else None
  | _ => None
  end.

(** s[i], s[i] = v: mach/run.go:38-70 *)
Definition load (h : heap) (s : slc) (i : nat) : option hval :=
  match cells h s with Some l => nth_error l i | None => None end.
Definition store (h : heap) (s : slc) (i : nat) (v : hval) : option heap :=
  match nth_error h (s_addr s) with
  | Some (BArr l) =>
    if (i <? s_len s)%nat then Some (set_nth (s_addr s) (BArr (set_nth (s_off s + i) v l)) h) else None
  | _ => None
  end.

(** append(s, v): in place if there is room: mach/run.go:38-46,80-82,698-757 *)
Inductive h_append (h : heap) (v : hval) : option slc -> heap -> slc -> Prop :=
| ApNil : forall n, h_append h v None (h ++ [BArr (v :: repeat (HAtom VNil) n)]) (mkSl (length h) 0 1 (S n))
| ApRoom : forall s l, nth_error h (s_addr s) = Some (BArr l) -> (s_len s < s_cap s)%nat ->
    h_append h v (Some s) (set_nth (s_addr s) (BArr (set_nth (s_off s + s_len s) v l)) h)
      (mkSl (s_addr s) (s_off s) (S (s_len s)) (s_cap s))
| ApMove : forall s l n, cells h s = Some l -> s_len s = s_cap s ->
    h_append h v (Some s) (h ++ [BArr (l ++ v :: repeat (HAtom VNil) n)])
      (mkSl (length h) 0 (S (s_len s)) (S (s_len s + n))).

(** the appends of mach/run.go:698-757 *)
Inductive h_appends : heap -> option slc -> list hval -> heap -> option slc -> Prop :=
| AsNil : forall h s, h_appends h s [] h s
| AsCons : forall h s v r h1 s1 h2 s2, h_append h v s h1 s1 -> h_appends h1 (Some s1) r h2 s2 ->
    h_appends h s (v :: r) h2 s2.

(** What a reference stands for; [P] holds of the blocks it is made of. Relates the storage to
    the values of Value.v (mach/json.go:13-15) *)
Inductive stands (P : nat -> Prop) (h : heap) : hval -> val -> Prop :=
| RpAtom : forall v, IsStructure v = false -> stands P h (HAtom v) v
| RpArr : forall s l vs, P (s_addr s) -> cells h s = Some l -> Forall2 (stands P h) l vs -> stands P h (HArr s) (VArr vs)
| RpMap : forall a m vs, P a -> nth_error h a = Some (BMap m) ->
    Forall2 (fun x y => fst x = fst y /\ stands P h (snd x) (snd y)) m vs -> stands P h (HMap a) (VObj vs).

(** relates a slice of mach/run.go:25-36 to a list of values *)
Definition stands_list (P : nat -> Prop) (h : heap) (s : slc) (l : list val) : Prop :=
  exists c, cells h s = Some c /\ Forall2 (stands P h) c l.

(** the blocks that can be reached from a reference: storage of the values of mach/json.go:13-15
    *)
Inductive reaches (h : heap) : hval -> nat -> Prop :=
| RcArr : forall s, reaches h (HArr s) (s_addr s)
| RcElem : forall s l x a, cells h s = Some l -> In x l -> reaches h x a -> reaches h (HArr s) a
| RcMap : forall a, reaches h (HMap a) a
| RcMember : forall b m k x a, nth_error h b = Some (BMap m) -> In (k, x) m -> reaches h x a -> reaches h (HMap b) a.

(** [made h ins h' x v]: [x] stands for [v] and is made of parts of [ins] and new storage: what
    the operators of mach/run.go:243-471 push *)
Definition made (h : heap) (ins : list hval) (h' : heap) (x : hval) (v : val) : Prop :=
  (exists new, h' = h ++ new) /\
  stands (fun a => (length h <= a)%nat \/ exists i, In i ins /\ reaches h i a) h' x v.
(** the same for the values selected at mach/run.go:698-757 *)
Definition made_all (h : heap) (ins : list hval) (h' : heap) (xs : list hval) (vs : list val) : Prop :=
  (exists new, h' = h ++ new) /\
  Forall2 (stands (fun a => (length h <= a)%nat \/ exists i, In i ins /\ reaches h i a) h') xs vs.

(** run.go:25-36; prog and root are parameters of the steps *)
Record hmach : Type := mkH {
  h_out : option slc;
  h_dot : hval;
  h_stk : option slc;
  h_sp : nat;
  h_pc : Z;
  h_vals : option slc;
  h_tick : nat
}.
(** assignments to the fields of mach/run.go:25-36 *)
Definition h_set_out (m : hmach) (o : option slc) : hmach := mkH o (h_dot m) (h_stk m) (h_sp m) (h_pc m) (h_vals m) (h_tick m).
Definition h_set_dot (m : hmach) (v : hval) : hmach := mkH (h_out m) v (h_stk m) (h_sp m) (h_pc m) (h_vals m) (h_tick m).
Definition h_set_stk (m : hmach) (s : option slc) (sp : nat) : hmach := mkH (h_out m) (h_dot m) s sp (h_pc m) (h_vals m) (h_tick m).
Definition h_set_pc (m : hmach) (pc : Z) : hmach := mkH (h_out m) (h_dot m) (h_stk m) (h_sp m) pc (h_vals m) (h_tick m).
Definition h_set_vals (m : hmach) (s : option slc) : hmach := mkH (h_out m) (h_dot m) (h_stk m) (h_sp m) (h_pc m) s (h_tick m).
Definition h_set_tick (m : hmach) (t : nat) : hmach := mkH (h_out m) (h_dot m) (h_stk m) (h_sp m) (h_pc m) (h_vals m) t.

(** len(s), mach/run.go:38-70 *)
Definition len_of (s : option slc) : nat := match s with Some s => s_len s | None => 0 end.

(** run.go:38-46 *)
Inductive h_push (v : hval) (h : heap) (m : hmach) : heap -> hmach -> Prop :=
| PuAppend : forall h' s, (len_of (h_stk m) <= h_sp m)%nat -> h_append h v (h_stk m) h' s ->
    h_push v h m h' (h_set_stk m (Some s) (s_len s))
| PuStore : forall s h', h_stk m = Some s -> (h_sp m < s_len s)%nat -> store h s (h_sp m) v = Some h' ->
    h_push v h m h' (h_set_stk m (Some s) (S (h_sp m))).

(** run.go:48-56 *)
Inductive h_pop (h : heap) (m : hmach) (v : hval) : heap -> hmach -> Prop :=
| PoOne : forall s sp h', h_stk m = Some s -> h_sp m = S sp -> load h s sp = Some v ->
    store h s sp (HAtom VNil) = Some h' -> h_pop h m v h' (h_set_stk m (h_stk m) sp).

(** run.go:66-68 *)
Fixpoint h_clear (h : heap) (s : option slc) (i n : nat) : option heap :=
  match n with
  | O => Some h
  | S n' =>
    match s with
    | None => None
    | Some s0 => match store h s0 i (HAtom VNil) with Some h' => h_clear h' s (S i) n' | None => None end
    end
  end.

(** run.go:58-70: the elements are copied to a new array *)
Inductive h_popN (k : nat) (h : heap) (m : hmach) (xs : list hval) : heap -> hmach -> Prop :=
| PoMany : forall h', (k <= h_sp m)%nat ->
    xs = match h_stk m with Some s => match cells h s with Some l => firstn k (skipn (h_sp m - k) l) | None => [] end | None => [] end ->
    length xs = k ->
    h_clear (h ++ [BArr xs]) (h_stk m) (h_sp m - k) k = Some h' ->
    h_popN k h m xs h' (h_set_stk m (h_stk m) (h_sp m - k)).

(** The machine stands for a machine of Machine.v. mach/run.go:25-36 *)
Record stands_m (P : nat -> Prop) (h : heap) (m : hmach) (ma : mstate) : Prop := {
  st_out : match h_out m, m_out ma with
           | None, None => True
           | Some s, Some l => stands_list P h s l
           | _, _ => False
           end;
  st_dot : stands P h (h_dot m) (m_dot ma);
  st_stk : match h_stk m with None => m_stack ma = [] | Some s => stands_list P h s (m_stack ma) end;
  st_sp : h_sp m = m_sp ma;
  st_pc : h_pc m = m_pc ma;
  st_tick : h_tick m = m_tick ma
}.

(** no restriction on blocks (for stands; mach/run.go as a whole) *)
Definition any (a : nat) : Prop := True.

(** operators that take their operands from the stack and push one value: the number of
    operands, or [None] if the order has it: mach/run.go:155-166,243-471,472-505 *)
Definition quiet (o : op) : option (option nat) :=
  match o with
  | OpInt | OpBool | OpNull | OpReal | OpRE | OpBounds | OpString | OpID | OpRoot | OpCurrent => Some (Some 0%nat)
  | OpExp | OpNeg | OpNot => Some (Some 1%nat)
  | OpDot | OpIndex | OpSlice | OpOr | OpAnd | OpAdd | OpSub | OpMul | OpDiv | OpMod
  | OpEQ | OpNE | OpLT | OpLE | OpGE | OpGT | OpMatch | OpIn | OpNin => Some (Some 2%nat)
  | OpCall => Some None
  | _ => None
  end.

(** the operands, popped: mach/run.go:48-70 *)
Inductive h_takes : option nat -> Z -> heap -> hmach -> list hval -> heap -> hmach -> Prop :=
| TkNone : forall n h m, h_takes (Some 0%nat) n h m [] h m
| TkOne : forall n h m a h1 m1, h_pop h m a h1 m1 -> h_takes (Some 1%nat) n h m [a] h1 m1
| TkTwo : forall n h m b h1 m1 a h2 m2, h_pop h m b h1 m1 -> h_pop h1 m1 a h2 m2 -> h_takes (Some 2%nat) n h m [a; b] h2 m2
| TkMany : forall n h m xs h1 m1, 0 <= n -> h_popN (Z.to_nat n) h m xs h1 m1 -> h_takes None n h m xs h1 m1.

(** run.go:714-757 with one candidate and one key, and 188-192, 215-219 with several: what they
    select is appended to [acc], or [acc] is lost *)
Inductive h_keys (W : world) (neg : bool) (el : hval) : heap -> list hval -> option slc -> heap -> option slc -> Prop :=
| KyNone : forall h acc, h_keys W neg el h [] acc h acc
| KySkip : forall h k kv r acc h' acc', stands any h k kv -> isNothing kv = true ->
    h_keys W neg el h r acc h' acc' -> h_keys W neg el h (k :: r) acc h' acc'
| KyAdd : forall h k kv v r acc vs h1 xs h2 acc2 h' acc', stands any h k kv -> isNothing kv = false -> stands any h el v ->
    valsByKey W (Some []) v kv neg = OK (Some vs) -> made_all h [el] h1 xs vs -> h_appends h1 acc xs h2 acc2 ->
    h_keys W neg el h2 r acc2 h' acc' -> h_keys W neg el h (k :: r) acc h' acc'
| KyLost : forall h k kv v r acc h' acc', stands any h k kv -> isNothing kv = false -> stands any h el v ->
    valsByKey W (Some []) v kv neg = OK None ->
    h_keys W neg el h r None h' acc' -> h_keys W neg el h (k :: r) acc h' acc'.

(** run.go:698-712 *)
Inductive h_wild (W : world) (t : nat) (el : hval) (h : heap) (acc : option slc) : heap -> option slc -> nat -> Prop :=
| WiAdd : forall v vs t' h1 xs h2 acc2, stands any h el v -> valsWild W t (Some []) v = (Some vs, t') -> made_all h [el] h1 xs vs ->
    h_appends h1 acc xs h2 acc2 -> h_wild W t el h acc h2 acc2 t'.

(** the loop of run.go:527-529 from element [i] of [src]; [f] is one call of its function *)
Inductive h_each (f : nat -> hval -> heap -> option slc -> heap -> option slc -> nat -> Prop) (src : option slc)
    : nat -> nat -> heap -> option slc -> heap -> option slc -> nat -> Prop :=
| EaEnd : forall i t h acc, (len_of src <= i)%nat -> h_each f src i t h acc h acc t
| EaOne : forall s i t h acc el h1 acc1 t1 h2 acc2 t2, src = Some s -> load h s i = Some el ->
    f t el h acc h1 acc1 t1 -> h_each f src (S i) t1 h1 acc1 h2 acc2 t2 ->
    h_each f src i t h acc h2 acc2 t2.

(** run.go:524-531 *)
Definition h_apply f (src : option slc) (t : nat) (h : heap) (h' : heap) (acc : option slc) (t' : nat) : Prop :=
  h_each f src 0 t (h ++ [BArr []]) (Some (mkSl (length h) 0 0 0)) h' acc t'.

(** the functions passed to applySelection at mach/run.go:167-225 *)
Definition f_keys (W : world) (neg : bool) (ks : list hval) (t : nat) (el : hval) (h : heap) (acc : option slc)
    (h' : heap) (acc' : option slc) (t' : nat) : Prop := t' = t /\ h_keys W neg el h ks acc h' acc'.
(** the function passed to applySelection for OpWild, mach/run.go:167-225 *)
Definition f_wild (W : world) (t : nat) (el : hval) (h : heap) (acc : option slc)
    (h' : heap) (acc' : option slc) (t' : nat) : Prop := h_wild W t el h acc h' acc' t'.

(** One iteration of the loop of run.go:128-505, after vm.pc++, other than OpFor, OpNest and OpRep. *)
Inductive h_exec (W : world) (p : program) (root : hval) (ord : order) (h : heap) (m : hmach) : heap -> hmach -> Prop :=
| XQuiet : forall o k args h1 m1 rv ma ma' n v h2 x h3 m3, op_of_num (order_op ord) = Some o -> quiet o = Some k ->
    h_takes k (order_small_int ord) h m args h1 m1 ->
    stands any h root rv -> stands_m any h m ma -> exec W p rv ord ma = OK ma' ->
    m_sp ma' = S n -> nth_error (m_stack ma') n = Some v ->
    made h1 (root :: h_dot m :: args) h2 x v -> h_push x h2 (h_set_tick m1 (m_tick ma')) h3 m3 ->
    h_exec W p root ord h m h3 m3
| XArray : forall xs h1 m1 h2 m2, op_of_num (order_op ord) = Some OpArray -> 0 <= order_small_int ord ->
    h_popN (Z.to_nat (order_small_int ord)) h m xs h1 m1 ->
    h_push (HArr (mkSl (length h) 0 (length xs) (length xs))) h1 m1 h2 m2 ->
    h_exec W p root ord h m h2 m2
| XWild : forall h1 acc t, op_of_num (order_op ord) = Some OpWild -> h_apply (f_wild W) (h_out m) (h_tick m) h h1 acc t ->
    h_exec W p root ord h m h1 (h_set_tick (h_set_out m acc) t)
| XMemberNone : forall o k kv h1 m1, op_of_num (order_op ord) = Some o -> (o = OpMember \/ o = OpSelect) ->
    h_pop h m k h1 m1 -> stands any h k kv -> isNothing kv = true ->
    h_exec W p root ord h m (h1 ++ [BArr []]) (h_set_out m1 (Some (mkSl (length h1) 0 0 0)))
| XMember : forall o k kv h1 m1 h2 acc t, op_of_num (order_op ord) = Some o -> (o = OpMember \/ o = OpSelect) ->
    h_pop h m k h1 m1 -> stands any h k kv -> isNothing kv = false ->
    h_apply (f_keys W (op_beq o OpSelect) [k]) (h_out m1) (h_tick m1) h1 h2 acc t ->
    h_exec W p root ord h m h2 (h_set_tick (h_set_out m1 acc) t)
| XUnion : forall ks h1 m1 h2 acc t, op_of_num (order_op ord) = Some OpUnion -> 0 <= order_small_int ord ->
    h_popN (Z.to_nat (order_small_int ord)) h m ks h1 m1 ->
    h_apply (f_keys W true ks) (h_out m1) (h_tick m1) h1 h2 acc t ->
    h_exec W p root ord h m h2 (h_set_tick (h_set_out m1 acc) t)
| XFilterYes : forall o v w h1 m1 h2 s, op_of_num (order_op ord) = Some o -> (o = OpFilter \/ o = OpNestFilter) ->
    h_pop h m v h1 m1 -> stands any h v w -> isNothing w = false -> cvb W w = true ->
    h_append h1 (h_dot m1) (h_out m1) h2 s ->
    h_exec W p root ord h m h2 (h_set_out m1 (Some s))
| XFilterNo : forall o v w h1 m1, op_of_num (order_op ord) = Some o -> (o = OpFilter \/ o = OpNestFilter) ->
    h_pop h m v h1 m1 -> stands any h v w -> (isNothing w = true \/ cvb W w = false) ->
    h_exec W p root ord h m h1 m1
| XNestWild : forall h1 acc t, op_of_num (order_op ord) = Some OpNestWild ->
    h_wild W (h_tick m) (h_dot m) h (h_out m) h1 acc t ->
    h_exec W p root ord h m h1 (h_set_tick (h_set_out m acc) t)
| XNestMemberNone : forall o k kv h1 m1, op_of_num (order_op ord) = Some o -> (o = OpNestMember \/ o = OpNestSelect) ->
    h_pop h m k h1 m1 -> stands any h k kv -> isNothing kv = true ->
    h_exec W p root ord h m h1 m1
| XNestMember : forall o k kv h1 m1 h2 acc, op_of_num (order_op ord) = Some o -> (o = OpNestMember \/ o = OpNestSelect) ->
    h_pop h m k h1 m1 -> stands any h k kv -> isNothing kv = false ->
    h_keys W (op_beq o OpNestSelect) (h_dot m1) h1 [k] (h_out m1) h2 acc ->
    h_exec W p root ord h m h2 (h_set_out m1 acc)
| XNestUnion : forall ks h1 m1 h2 acc, op_of_num (order_op ord) = Some OpNestUnion -> 0 <= order_small_int ord ->
    h_popN (Z.to_nat (order_small_int ord)) h m ks h1 m1 ->
    h_keys W true (h_dot m1) h1 ks (h_out m1) h2 acc ->
    h_exec W p root ord h m h2 (h_set_out m1 acc).

(** an order that returns an error: its operands have been popped: mach/run.go:433-471,512-522
    *)
Inductive h_fails (W : world) (p : program) (root : hval) (ord : order) (h : heap) (m : hmach) (e : rerr) : heap -> hmach -> Prop :=
| FQuiet : forall o k args h1 m1 rv ma, op_of_num (order_op ord) = Some o -> quiet o = Some k ->
    h_takes k (order_small_int ord) h m args h1 m1 ->
    stands any h root rv -> stands_m any h m ma -> exec W p rv ord ma = Fail e -> h_fails W p root ord h m e h1 m1
| FOther : forall rv ma, match op_of_num (order_op ord) with Some o => quiet o = None | None => True end ->
    stands any h root rv -> stands_m any h m ma -> exec W p rv ord ma = Fail e -> h_fails W p root ord h m e h m.

(** ** Producers *)
(** mach/run.go:808-857 *)
Inductive hframe : Type :=
| GEach (s : slc) (i : nat) (ts : list nat)       (* for _, v := range s, from element i *)
| GEachM (a : nat) (ks : list nat) (ts : list nat)   (* for _, v := range of a map: the entries to come *)
| GBody (t : nat) (v : hval)
| GStep (t : nat) (s : slc) (i : nat)
| GSend (s : slc) (i : nat)
| GSendM (a : nat) (ks : list nat).
(** mach/run.go:808-857 *)
Inductive hprod : Type :=
| GRun (k : list hframe)
| GPut (v : hval) (k : list hframe)
| GClosed.

(** IsStructure, mach/json.go:82-89 *)
Definition is_ref (v : hval) : bool := match v with HArr _ | HMap _ => true | _ => false end.

(** one step of a producer on its own (run.go:808-857); [ts] are the numbers of the ranges over
    maps to come, see Conc.v *)
Inductive g_step (W : world) (h : heap) : hprod -> hprod -> Prop :=
| GsClose : g_step W h (GRun []) GClosed
| GsEachEnd : forall s i ts k, (s_len s <= i)%nat -> g_step W h (GRun (GEach s i ts :: k)) (GRun k)
| GsEachPut : forall s i t ts k v, load h s i = Some v -> is_ref v = true ->
    g_step W h (GRun (GEach s i (t :: ts) :: k)) (GPut v (GBody t v :: GEach s (S i) ts :: k))
| GsEachSkip : forall s i t ts k v, load h s i = Some v -> is_ref v = false ->
    g_step W h (GRun (GEach s i (t :: ts) :: k)) (GRun (GEach s (S i) ts :: k))
| GsMapEnd : forall a ts k, g_step W h (GRun (GEachM a [] ts :: k)) (GRun k)
| GsMapPut : forall a x ks t ts k m v, nth_error h a = Some (BMap m) -> option_map snd (nth_error m x) = Some v -> is_ref v = true ->
    g_step W h (GRun (GEachM a (x :: ks) (t :: ts) :: k)) (GPut v (GBody t v :: GEachM a ks ts :: k))
| GsMapSkip : forall a x ks t ts k m v, nth_error h a = Some (BMap m) -> option_map snd (nth_error m x) = Some v -> is_ref v = false ->
    g_step W h (GRun (GEachM a (x :: ks) (t :: ts) :: k)) (GRun (GEachM a ks ts :: k))
| GsBodyArr : forall t s vs k, stands_list any h s vs ->
    g_step W h (GRun (GBody t (HArr s) :: k)) (GRun (GEach s 0 (map fst (numbered t vs)) :: k))
| GsBodyMap : forall t a m vs k, nth_error h a = Some (BMap m) -> Forall2 (stands any h) (map snd m) vs ->
    g_step W h (GRun (GBody t (HMap a) :: k))
      (GRun (GEachM a (reorder (w_perm W t (length m)) (seq 0 (length m)))
               (map fst (reorder (w_perm W t (length m)) (numbered (S t) vs))) :: k))
| GsBodyOther : forall t v k, is_ref v = false -> g_step W h (GRun (GBody t v :: k)) (GRun k)
| GsStepEnd : forall t s i k, (s_len s <= i)%nat -> g_step W h (GRun (GStep t s i :: k)) (GRun k)
| GsStepArr : forall t s i k s', load h s i = Some (HArr s') ->
    g_step W h (GRun (GStep t s i :: k)) (GRun (GSend s' 0 :: GStep t s (S i) :: k))
| GsStepMap : forall t s i k a m, load h s i = Some (HMap a) -> nth_error h a = Some (BMap m) ->
    g_step W h (GRun (GStep t s i :: k))
      (GRun (GSendM a (reorder (w_perm W t (length m)) (seq 0 (length m))) :: GStep (S t) s (S i) :: k))
| GsStepSkip : forall t s i k v, load h s i = Some v -> is_ref v = false ->
    g_step W h (GRun (GStep t s i :: k)) (GRun (GStep t s (S i) :: k))
| GsSendEnd : forall s i k, (s_len s <= i)%nat -> g_step W h (GRun (GSend s i :: k)) (GRun k)
| GsSendPut : forall s i k v, load h s i = Some v -> g_step W h (GRun (GSend s i :: k)) (GPut v (GSend s (S i) :: k))
| GsSendMEnd : forall a k, g_step W h (GRun (GSendM a [] :: k)) (GRun k)
| GsSendMPut : forall a x ks k m v, nth_error h a = Some (BMap m) -> option_map snd (nth_error m x) = Some v ->
    g_step W h (GRun (GSendM a (x :: ks) :: k)) (GPut v (GSendM a ks :: k)).

(** ** One evaluation *)
(** the results of mach/run.go:126 *)
Inductive hresult : Type :=
| ROk (s : slc)
| RFail (e : rerr)
| RPanic.
(** what the machine of mach/run.go:123-546 is doing, see Conc.v *)
Inductive hmode : Type :=
| GoRun
| GoFirst
| GoRep (ord : order)
| GoDone (r : hresult).
(** mach/run.go:25-36, with the goroutines started at 534-546 *)
Record hthread : Type := mkT { g_m : hmach; g_mode : hmode; g_prods : list hprod }.

(** the producer of a loop over [s], and the number of the next range over a map:
    mach/run.go:534-546 *)
Inductive h_start (h : heap) (t : nat) (s : slc) : op -> hprod -> nat -> Prop :=
| StFor : forall vs, stands_list any h s vs -> h_start h t s OpFor (GRun [GStep t s 0]) (t + step_ranges vs)
| StNest : forall vs, stands_list any h s vs ->
    h_start h t s OpNest (GRun [GEach s 0 (map fst (numbered t vs))]) (t + list_sum (map walk_ranges vs)).

(** vm.topInput(): mach/run.go:84-86 *)
Definition top_chan (h : heap) (m : hmach) : option nat :=
  match h_vals m with
  | Some s => match load h s (s_len s - 1) with Some (HChan i) => Some i | _ => None end
  | None => None
  end.

(** The next step of the machine. mach/run.go:123-546 *)
Inductive h_main (W : world) (p : program) (root : hval) (h : heap) (m : hmach) (ps : list hprod) : hmode -> heap -> hthread -> Prop :=
| NEnd : forall s, prog_size p <= h_pc m -> h_out m = Some s ->
    h_main W p root h m ps GoRun h (mkT m (GoDone (ROk s)) ps)
| NEndNil : prog_size p <= h_pc m -> h_out m = None ->
    h_main W p root h m ps GoRun (h ++ [BArr []]) (mkT m (GoDone (ROk (mkSl (length h) 0 0 0))) ps)
| NNoOrder : h_pc m < prog_size p -> index_Z (p_orders p) (h_pc m) = None ->
    h_main W p root h m ps GoRun h (mkT m (GoDone RPanic) ps)
| NExec : forall ord h' m', h_pc m < prog_size p -> index_Z (p_orders p) (h_pc m) = Some ord ->
    h_exec W p root ord h (h_set_pc m (h_pc m + 1)) h' m' ->
    h_main W p root h m ps GoRun h' (mkT m' GoRun ps)
| NFails : forall ord e h' m', h_pc m < prog_size p -> index_Z (p_orders p) (h_pc m) = Some ord ->
    h_fails W p root ord h (h_set_pc m (h_pc m + 1)) e h' m' ->
    h_main W p root h m ps GoRun h' (mkT m' (GoDone (RFail e)) ps)
| NPanics : forall ord o rv ma, h_pc m < prog_size p -> index_Z (p_orders p) (h_pc m) = Some ord ->
    op_of_num (order_op ord) = Some o -> (o <> OpFor /\ o <> OpNest /\ o <> OpRep) ->
    stands any h root rv -> stands_m any h (h_set_pc m (h_pc m + 1)) ma -> exec W p rv ord ma = Panics ->
    h_main W p root h m ps GoRun h (mkT (h_set_pc m (h_pc m + 1)) (GoDone RPanic) ps)
| NLoopPanics : forall ord o, h_pc m < prog_size p -> index_Z (p_orders p) (h_pc m) = Some ord ->
    op_of_num (order_op ord) = Some o -> (o = OpFor \/ o = OpNest) -> order_pc ord = None ->
    h_main W p root h m ps GoRun h (mkT (h_set_pc m (h_pc m + 1)) (GoDone RPanic) ps)
| NLoopEmpty : forall ord o epc, h_pc m < prog_size p -> index_Z (p_orders p) (h_pc m) = Some ord ->
    op_of_num (order_op ord) = Some o -> (o = OpFor \/ o = OpNest) -> order_pc ord = Some epc -> len_of (h_out m) = 0%nat ->
    h_main W p root h m ps GoRun h
      (if (epc <=? 0) || (epc >? prog_size p) then mkT (h_set_pc m (h_pc m + 1)) (GoDone RPanic) ps
       else mkT (h_set_pc m epc) GoRun ps)
| NLoop : forall ord o epc s q t h1 vs, h_pc m < prog_size p -> index_Z (p_orders p) (h_pc m) = Some ord ->
    op_of_num (order_op ord) = Some o -> (o = OpFor \/ o = OpNest) -> order_pc ord = Some epc ->
    h_out m = Some s -> s_len s <> 0%nat -> h_append h (HChan (length ps)) (h_vals m) h1 vs ->
    h_start h1 (h_tick m) s o q t ->
    h_main W p root h m ps GoRun (h1 ++ [BArr []])
      (mkT (h_set_tick (h_set_vals (h_set_out (h_set_pc m (h_pc m + 1)) (Some (mkSl (length h1) 0 0 0))) (Some vs)) t) GoFirst (ps ++ [q]))
| NRepPanics : forall ord, h_pc m < prog_size p -> index_Z (p_orders p) (h_pc m) = Some ord ->
    op_of_num (order_op ord) = Some OpRep -> len_of (h_vals m) = 0%nat ->
    h_main W p root h m ps GoRun h (mkT (h_set_pc m (h_pc m + 1)) (GoDone RPanic) ps)
| NRep : forall ord, h_pc m < prog_size p -> index_Z (p_orders p) (h_pc m) = Some ord ->
    op_of_num (order_op ord) = Some OpRep -> len_of (h_vals m) <> 0%nat ->
    h_main W p root h m ps GoRun h (mkT (h_set_pc m (h_pc m + 1)) (GoRep ord) ps)
| NFirst : forall i v k, top_chan h m = Some i -> nth_error ps i = Some (GPut v k) ->
    h_main W p root h m ps GoFirst h (mkT (h_set_dot m v) GoRun (set_nth i (GRun k) ps))
| NFirstNone : forall i, top_chan h m = Some i -> nth_error ps i = Some GClosed ->
    h_main W p root h m ps GoFirst h (mkT (h_set_dot m (HAtom VNil)) GoRun ps)
| NNext : forall ord i v k pc, top_chan h m = Some i -> nth_error ps i = Some (GPut v k) -> order_pc ord = Some pc ->
    h_main W p root h m ps (GoRep ord) h
      (if (pc <=? 0) || (pc >? prog_size p) then mkT (h_set_dot m v) (GoDone RPanic) (set_nth i (GRun k) ps)
       else mkT (h_set_pc (h_set_dot m v) pc) GoRun (set_nth i (GRun k) ps))
| NNextPanics : forall ord i v k, top_chan h m = Some i -> nth_error ps i = Some (GPut v k) -> order_pc ord = None ->
    h_main W p root h m ps (GoRep ord) h (mkT (h_set_dot m v) (GoDone RPanic) (set_nth i (GRun k) ps))
| NLast : forall ord i s, top_chan h m = Some i -> nth_error ps i = Some GClosed -> h_vals m = Some s ->
    h_main W p root h m ps (GoRep ord) h
      (mkT (h_set_vals (h_set_dot m (HAtom VNil)) (Some (mkSl (s_addr s) (s_off s) (s_len s - 1) (s_cap s)))) GoRun ps).

(** the arrays an evaluation appends to or stores into: of vm.out, vm.stack and vm.values, until
    it has returned: mach/run.go:25-36 *)
Definition addr_of (s : option slc) : list nat := match s with Some s => [s_addr s] | None => [] end.
Definition bufs (e : hthread) : list nat :=
  match g_mode e with
  | GoDone _ => []
  | _ => addr_of (h_out (g_m e)) ++ addr_of (h_stk (g_m e)) ++ addr_of (h_vals (g_m e))
  end.

(** ** Any number of evaluations *)
(** An evaluation: what it was called with, and how far it has got. [e_code] is where its
    program is. [e_prog] and [e_val] are the program and the value of the document when it was
    called; the steps do not look at them. A call of jsonpath.go:91-93 *)
Record evaluation : Type := mkE {
  e_world : world;
  e_tick0 : nat;
  e_code : nat;
  e_prog : program;
  e_root : hval;
  e_val : val;
  e_st : hthread
}.
(** concurrent calls of jsonpath.go:91-93 *)
Record sys : Type := mkS { y_heap : heap; y_evals : list evaluation }.

(** storage that no evaluation in progress appends to or stores into: mach/run.go:25-36 *)
Definition frozen (y : sys) (a : nat) : Prop :=
  (a < length (y_heap y))%nat /\ ~ In a (flat_map (fun e => bufs (e_st e)) (y_evals y)).

(** run.go:127, after the allocation of []JSON{root} *)
Definition h_init (a t : nat) (root : hval) : hthread :=
  mkT (mkH (Some (mkSl a 0 1 1)) (HAtom VNil) None 0 0 None t) GoRun [].

(** a step of a call of jsonpath.go:91-93 *)
Definition with_st (e : evaluation) (s : hthread) : evaluation :=
  mkE (e_world e) (e_tick0 e) (e_code e) (e_prog e) (e_root e) (e_val e) s.

(** a call of jsonpath.go:91-93 begins, makes a step, or its caller builds a document *)
Inductive sstep : sys -> sys -> Prop :=
(* the caller builds something *)
| YAlloc : forall h es new, sstep (mkS h es) (mkS (h ++ new) es)
(* Run is called, on a document that is not in use by another evaluation's machinery *)
| YCall : forall h es W t b p root v, stands (frozen (mkS h es)) h root v -> nth_error h b = Some (BProg p) ->
    sstep (mkS h es) (mkS (h ++ [BArr [root]]) (es ++ [mkE W t b p root v (h_init (length h) t root)]))
(* a step of the machine of evaluation j *)
| YMain : forall h es j e p h' st, nth_error es j = Some e -> nth_error h (e_code e) = Some (BProg p) ->
    h_main (e_world e) p (e_root e) h (g_m (e_st e)) (g_prods (e_st e)) (g_mode (e_st e)) h' st ->
    sstep (mkS h es) (mkS h' (set_nth j (with_st e st) es))
(* a step of producer i of evaluation j *)
| YProd : forall h es j e i q q', nth_error es j = Some e -> nth_error (g_prods (e_st e)) i = Some q ->
    g_step (e_world e) h q q' ->
    sstep (mkS h es) (mkS h (set_nth j (with_st e (mkT (g_m (e_st e)) (g_mode (e_st e)) (set_nth i q' (g_prods (e_st e))))) es)).

(** any sequence of calls of jsonpath.go:91-93 *)
Inductive reachable : sys -> Prop :=
| YEmpty : reachable (mkS [] [])
| YStep : forall y y', reachable y -> sstep y y' -> reachable y'.
(** the same, from a given state *)
Inductive later : sys -> sys -> Prop :=
| LtHere : forall y, later y y
| LtStep : forall y y1 y2, sstep y y1 -> later y1 y2 -> later y y2.
