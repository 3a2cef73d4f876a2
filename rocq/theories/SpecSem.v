(** What a path means: what its expressions give, what its steps select, one after the
    other.  A specification over syntax trees and documents: no program, no machine state.
    What an operator does to the values of its operands is taken from SpecOp, and
    characterised operator by operator in the properties C30 to C46 and C56. *)
From Coq Require Import QArith Qabs Permutation.
From Verif Require Import Syntax Value Machine SpecDoc SpecSelect SpecRun SpecOp SpecExpr SpecText.
Local Open Scope Z_scope.

(** ** Expressions *)

(** a result without the number of the next range over a map *)
Definition value_of (r : M (val * nat)) : M val := let! (v, _) := r in OK v.

(** the same world but for the orders in which maps are iterated over *)
Definition reordered (W : world) (perm : nat -> nat -> list nat) : world :=
  mkWorld (w_text W) (w_re_match W) (w_re_split W) (w_sprint_float W) (w_sprint W) (w_f2i W) perm.

(** [yields W o vs r]: the operator [o], on the values [vs], gives the value or error [r], for
    some order of iteration over maps.  (The number of operands fits in an order.) *)
Definition yields (W : world) (o : op) (vs : list val) (r : M val) : Prop :=
  Z.of_nat (length vs) < 4194304 /\
  exists perm t r', orders_ok (reordered W perm) /\ operates (reordered W perm) t o vs r' /\ r = value_of r'.

Inductive leaf_means (root dot : val) : expr -> val -> Prop :=
| LmInt : forall z, leaf_means root dot (EInt z) (VInt64 z)
| LmFloat : forall f, leaf_means root dot (EFloat f) (VFloat f)
| LmStr : forall s, leaf_means root dot (EStr s) (VStr s)
| LmBool : forall b, leaf_means root dot (EBool b) (VBool b)
| LmNull : leaf_means root dot ENull VNil
| LmName : forall s, leaf_means root dot (EName s) (VName s)
| LmRegexp : forall p, leaf_means root dot (ERegexp p) (VRegexp p)
| LmCurrent : leaf_means root dot ECurrent dot
| LmRoot : leaf_means root dot ERoot root.

(** [means W root dot e r]: where $ is [root] and @ is [dot], the expression [e] gives the
    value, or the error, [r].  All operands of an operator are evaluated, from left to right,
    until one gives an error. *)
Inductive means (W : world) (root dot : val) : expr -> M val -> Prop :=
| MnLeaf : forall e v, leaf_means root dot e v -> means W root dot e (OK v)
| MnInner : forall o kids vs r, Forall2 (fun e v => means W root dot e (OK v)) kids vs ->
    yields W o vs r -> means W root dot (EInner o kids) r
| MnError : forall o pre e post vs err, Forall2 (fun e v => means W root dot e (OK v)) pre vs ->
    means W root dot e (Fail err) -> means W root dot (EInner o (pre ++ e :: post)) (Fail err).

(** ** Arguments of steps *)

(** a double truncated toward zero; what Go does outside the int64 range is unspecified *)
Inductive truncated (W : world) (f : f64) : Z -> Prop :=
| TrIn : forall q z, real_of f = Some q -> -9223372036854775808 <= z <= 9223372036854775807 ->
    (Qabs (inject_Z z) <= Qabs q)%Q -> (Qabs (q - inject_Z z) < 1)%Q -> truncated W f z
| TrOut : forall z, (forall q n, real_of f = Some q -> -9223372036854775808 <= n <= 9223372036854775807 ->
      (Qabs (q - inject_Z n) < 1)%Q -> (Qabs q < Qabs (inject_Z n))%Q) ->
    reduces (w_f2i W f) z -> truncated W f z.

(** the member name a value stands for *)
Inductive named (W : world) : val -> bytes -> Prop :=
| NmStr : forall s, named W (VStr s) s
| NmName : forall s, named W (VName s) s
| NmNum : forall s, named W (VNum s) s
| NmNull : named W VNil (b_of "<nil>")
| NmTrue : named W (VBool true) (b_of "true")
| NmFalse : named W (VBool false) (b_of "false")
| NmInt : forall z, named W (VInt z) (decimal z)
| NmInt64 : forall z, named W (VInt64 z) (decimal z)
| NmFloat : forall f z, truncated W f z -> named W (VFloat f) (decimal z)
| NmArr : forall l, named W (VArr l) (w_sprint W (VArr l))
| NmObj : forall m, named W (VObj m) (w_sprint W (VObj m))
| NmRegexp : forall p, named W (VRegexp p) (w_sprint W (VRegexp p)).

(** the selector a value acts as, if any: an integer is an index, anything else that is not
    a failure is a member name *)
Inductive acts_as (W : world) (back : bool) : val -> option sel -> Prop :=
| AaFailure : forall v, failure v -> acts_as W back v None
| AaInt : forall z, acts_as W back (VInt z) (Some (SIndex back z))
| AaInt64 : forall z, acts_as W back (VInt64 z) (Some (SIndex back z))
| AaName : forall v k, isInt v = false -> named W v k -> acts_as W back v (Some (SName k)).

(** the selector, if any, that is the argument of a step.  Bounds of slices that are
    expressions count as 0. *)
Inductive arg_means (W : world) (root dot : val) (back : bool) : pval -> M (option sel) -> Prop :=
| AmName : forall k, arg_means W root dot back (PName k) (OK (Some (SName k)))
| AmStr : forall k, arg_means W root dot back (PStr k) (OK (Some (SName k)))
| AmInt : forall n, arg_means W root dot back (PInt n) (OK (Some (SIndex back n)))
| AmSlice : forall sl, arg_means W root dot back (PSlice sl)
    (OK (Some (SSlice (written_bound (sl_start sl)) (written_bound (sl_end sl)) (written_bound (sl_stride sl)))))
| AmExpr : forall e v o, means W root dot e (OK v) -> acts_as W back v o ->
    arg_means W root dot back (PExpr e) (OK o)
| AmError : forall e err, means W root dot e (Fail err) -> arg_means W root dot back (PExpr e) (Fail err).

(** all of them, until one gives an error *)
Inductive args_mean (W : world) (root dot : val) (back : bool) : list pval -> M (list sel) -> Prop :=
| AsOK : forall args os, Forall2 (fun a o => arg_means W root dot back a (OK o)) args os ->
    args_mean W root dot back args (OK (flat_map (fun o => match o with Some s => [s] | None => [] end) os))
| AsError : forall pre a post os err, Forall2 (fun a o => arg_means W root dot back a (OK o)) pre os ->
    arg_means W root dot back a (Fail err) -> args_mean W root dot back (pre ++ a :: post) (Fail err).

(** ** Steps *)

(** the values @ takes in a step that iterates over what [produces] gives for the candidates:
    all of them, but null if there are none *)
Inductive rounds (produces : val -> list val -> Prop) : list val -> list val -> Prop :=
| RdNone : rounds produces [] []
| RdNull : forall cands, cands <> [] -> gathers produces cands [] -> rounds produces cands [VNil]
| RdAll : forall cands dots, dots <> [] -> gathers produces cands dots -> rounds produces cands dots.

(** the values of @ for which a filter's expression is true *)
Inductive keeps (W : world) (root : val) (e : expr) : list val -> M (list val) -> Prop :=
| KpNil : keeps W root e [] (OK [])
| KpTrue : forall d v dots r, means W root d e (OK v) -> ~ falsy W v -> keeps W root e dots r ->
    keeps W root e (d :: dots) (let! l := r in OK (d :: l))
| KpFalse : forall d v dots r, means W root d e (OK v) -> falsy W v -> keeps W root e dots r ->
    keeps W root e (d :: dots) r
| KpError : forall d err dots, means W root d e (Fail err) -> keeps W root e (d :: dots) (Fail err).

(** the applications a step makes to the values of @ one after the other: of the selectors
    evaluated for each.  Ends early with an error, or when a slice's stride overflows. *)
Inductive sweeps (W : world) (root : val) (back : bool) (args : list pval) :
    list val -> M (list (sel * val)) -> Prop :=
| SwNil : sweeps W root back args [] (OK [])
| SwDot : forall d dots sels r, args_mean W root d back args (OK sels) ->
    Forall (fun a => ~ app_overflows a) (applications sels [d]) -> sweeps W root back args dots r ->
    sweeps W root back args (d :: dots) (let! apps := r in OK (applications sels [d] ++ apps))
| SwOverflow : forall d dots sels, args_mean W root d back args (OK sels) ->
    Exists app_overflows (applications sels [d]) -> sweeps W root back args (d :: dots) Panics
| SwError : forall d dots err, args_mean W root d back args (Fail err) ->
    sweeps W root back args (d :: dots) (Fail err).

(** [step_means W root s cands r]: what the step [s] selects from the candidates, or the error;
    [Panics] is a run-time panic *)
Inductive step_means (W : world) (root : val) (s : pstep) (cands : list val) : M (list val) -> Prop :=
| SmWild : forall l, st_op s = OpWild -> gathers children_in_order cands l -> step_means W root s cands (OK l)
| SmSelect : forall sels l, is_select (st_op s) = true ->
    args_mean W root VNil (counts_back (st_op s)) (st_args s) (OK sels) ->
    Forall (fun a => ~ app_overflows a) (applications sels cands) ->
    collects (applications sels cands) l -> step_means W root s cands (OK l)
| SmOverflow : forall sels, is_select (st_op s) = true ->
    args_mean W root VNil (counts_back (st_op s)) (st_args s) (OK sels) ->
    Exists app_overflows (applications sels cands) -> step_means W root s cands Panics
| SmError : forall err, is_select (st_op s) = true ->
    args_mean W root VNil (counts_back (st_op s)) (st_args s) (Fail err) -> step_means W root s cands (Fail err)
| SmFilter : forall e dots r, st_op s = OpFilter -> st_args s = [PExpr e] ->
    rounds children_in_order cands dots -> keeps W root e dots r -> step_means W root s cands r
| SmNestWild : forall dots l, st_op s = OpNestWild -> rounds walks cands dots ->
    gathers children_in_order dots l -> step_means W root s cands (OK l)
| SmNestFilter : forall e dots r, st_op s = OpNestFilter -> st_args s = [PExpr e] ->
    rounds walks cands dots -> keeps W root e dots r -> step_means W root s cands r
| SmNest : forall dots apps l, is_nest_select (st_op s) = true -> rounds walks cands dots ->
    sweeps W root (counts_back (st_op s)) (st_args s) dots (OK apps) -> collects apps l ->
    step_means W root s cands (OK l)
| SmNestError : forall dots err, is_nest_select (st_op s) = true -> rounds walks cands dots ->
    sweeps W root (counts_back (st_op s)) (st_args s) dots (Fail err) -> step_means W root s cands (Fail err)
| SmNestOverflow : forall dots, is_nest_select (st_op s) = true -> rounds walks cands dots ->
    sweeps W root (counts_back (st_op s)) (st_args s) dots Panics -> step_means W root s cands Panics.

(** steps one after the other, each on what the one before selected, until one fails *)
Inductive path_means (W : world) (root : val) : path -> list val -> M (list val) -> Prop :=
| PmEnd : forall cands, path_means W root [] cands (OK cands)
| PmStep : forall s ss cands l r, step_means W root s cands (OK l) -> path_means W root ss l r ->
    path_means W root (s :: ss) cands r
| PmError : forall s ss cands err, step_means W root s cands (Fail err) ->
    path_means W root (s :: ss) cands (Fail err)
| PmPanic : forall s ss cands, step_means W root s cands Panics -> path_means W root (s :: ss) cands Panics.

(** ** Parts of paths *)

(** [part_of x e]: [x] is [e] or an operand inside it *)
Inductive part_of (x : expr) : expr -> Prop :=
| PoSelf : part_of x x
| PoKid : forall o kids e, In e kids -> part_of x e -> part_of x (EInner o kids).

(** [occurs ss x]: the expression [x] is evaluated by a step of the path, as its argument or as
    part of it.  (Bounds of slices are not evaluated.) *)
Definition occurs (ss : path) (x : expr) : Prop :=
  exists s e, In s ss /\ In (PExpr e) (st_args s) /\ part_of x e.

(** the path calls keys(), the only function that lists the members of an object *)
Definition calls_keys (ss : path) : Prop :=
  exists args, occurs ss (EInner OpCall (EName (b_of "keys") :: args)).

(** some step has a slice *)
Definition has_slice (ss : path) : Prop := exists s sl, In s ss /\ In (PSlice sl) (st_args s).

(** no object in the document has two members *)
Definition lone_members (v : val) : Prop := forall m, within (VObj m) v -> (length m <= 1)%nat.

(** ** Comparing outcomes and paths *)

(** the same values in some order, or both errors *)
Definition alike (r r' : M (list val)) : Prop :=
  match r, r' with
  | OK l, OK l' => Permutation l l'
  | Fail _, Fail _ => True
  | _, _ => False
  end.

(** what has been selected, without the number of the next range over a map *)
Definition selected (r : M (list val * nat)) : M (list val) := let! (l, _) := r in OK l.

(** null for @ *)
Fixpoint no_current (e : expr) : expr :=
  match e with
  | ECurrent => ENull
  | EInner o kids => EInner o (map no_current kids)
  | e => e
  end.

(** the same in the script subscripts of a step without filter or .. *)
Definition null_scripts (s : pstep) : pstep :=
  if is_select (st_op s)
  then mkStep (st_op s) (map (fun a => match a with PExpr e => PExpr (no_current e) | a => a end) (st_args s))
  else s.

(** ** Errors *)

(** [blames W root dot x err]: the expression [x], with the given $ and @, is a reason for the
    run-time error [err] *)
Inductive blames (W : world) (root dot : val) : expr -> rerr -> Prop :=
| BlUnknown : forall id args, (forall n a, In (n, a) function_table -> id <> b_of n) ->
    blames W root dot (EInner OpCall (EName id :: args)) (RNoFunction id)
| BlCount : forall f n args, In (f, Some n) function_table -> length args <> n ->
    blames W root dot (EInner OpCall (EName (b_of f) :: args)) (RArgCount (b_of f) (Z.of_nat n) (Z.of_nat (length args)))
| BlPattern : forall a b pat, means W root dot b (OK (VStr pat)) -> o_re_ok (w_text W) pat = false ->
    blames W root dot (EInner OpMatch [a; b]) (RBadRegexp pat)
| BlRight : forall a b v, means W root dot b (OK v) -> ~ failure v -> (forall p, v <> VRegexp p) -> (forall p, v <> VStr p) ->
    blames W root dot (EInner OpMatch [a; b]) (RMatchRight v)
| BlLeft : forall a b v, means W root dot a (OK v) -> ~ failure v -> (forall s, v <> VStr s) ->
    blames W root dot (EInner OpMatch [a; b]) (RMatchLeft v)
| BlIn : forall a b v, means W root dot b (OK v) -> ~ failure v -> (forall l, v <> VArr l) ->
    blames W root dot (EInner OpIn [a; b]) (RInRight false v)
| BlNin : forall a b v, means W root dot b (OK v) -> ~ failure v -> (forall l, v <> VArr l) ->
    blames W root dot (EInner OpNin [a; b]) (RInRight true v).

(** operators that may raise an error *)
Definition may_fail (o : op) : bool :=
  match o with OpCall | OpMatch | OpIn | OpNin => true | _ => false end.
