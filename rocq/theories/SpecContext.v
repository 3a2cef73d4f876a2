(** Expressions that can stand for each other.  A specification. *)
From Verif Require Import Syntax Value Machine SpecDoc SpecExpr SpecSem.

(** [e] and [e'] give the same values and errors whatever @ is *)
Definition equivalent (W : world) (root : val) (e e' : expr) : Prop :=
  forall dot r, doc dot -> (means W root dot e r <-> means W root dot e' r).

(** an expression with some of the occurrences of [e] replaced by [e'] *)
Inductive exchanged (e e' : expr) : expr -> expr -> Prop :=
| ExHere : exchanged e e' e e'
| ExSame : forall x, exchanged e e' x x
| ExInner : forall o kids kids', Forall2 (exchanged e e') kids kids' -> exchanged e e' (EInner o kids) (EInner o kids').

(** the same in the arguments of a step, and in a path *)
Inductive exchanged_arg (e e' : expr) : pval -> pval -> Prop :=
| ExExpr : forall x x', exchanged e e' x x' -> exchanged_arg e e' (PExpr x) (PExpr x')
| ExKey : forall a, exchanged_arg e e' a a.
Definition exchanged_step (e e' : expr) (s s' : pstep) : Prop :=
  st_op s = st_op s' /\ Forall2 (exchanged_arg e e') (st_args s) (st_args s').
Definition exchanged_path (e e' : expr) : path -> path -> Prop := Forall2 (exchanged_step e e').

(** as a condition, [e] is true, is false or gives an error *)
Inductive turns_out (W : world) (root dot : val) (e : expr) : M bool -> Prop :=
| ToTrue : forall v, means W root dot e (OK v) -> ~ falsy W v -> turns_out W root dot e (OK true)
| ToFalse : forall v, means W root dot e (OK v) -> falsy W v -> turns_out W root dot e (OK false)
| ToError : forall err, means W root dot e (Fail err) -> turns_out W root dot e (Fail err).

(** [e] and [e'] are the same conditions whatever @ is *)
Definition alike (W : world) (root : val) (e e' : expr) : Prop :=
  forall dot r, doc dot -> (turns_out W root dot e r <-> turns_out W root dot e' r).

(** a condition with some of the occurrences of [e] as a condition in it replaced by [e'] *)
Inductive recast (e e' : expr) : expr -> expr -> Prop :=
| RcHere : recast e e' e e'
| RcSame : forall x, recast e e' x x
| RcNot : forall x x', recast e e' x x' -> recast e e' (EInner OpNot [x]) (EInner OpNot [x'])
| RcBoth : forall o a b a' b', o = OpAnd \/ o = OpOr -> recast e e' a a' -> recast e e' b b' ->
    recast e e' (EInner o [a; b]) (EInner o [a'; b']).

(** the same in the filters of a path *)
Inductive recast_step (e e' : expr) : pstep -> pstep -> Prop :=
| RsFilter : forall s s' x x', st_op s = OpFilter \/ st_op s = OpNestFilter -> st_op s' = st_op s ->
    st_args s = [PExpr x] -> st_args s' = [PExpr x'] -> recast e e' x x' -> recast_step e e' s s'
| RsSame : forall s, recast_step e e' s s.
Definition recast_path (e e' : expr) : path -> path -> Prop := Forall2 (recast_step e e').

(** [e] gives no error whatever @ is *)
Definition steady (W : world) (root : val) (e : expr) : Prop :=
  forall dot, doc dot -> (exists v, means W root dot e (OK v)) /\ forall r, means W root dot e r -> exists v, r = OK v.

(** a o b is b o' a *)
Inductive mirrored_op : op -> op -> Prop :=
| MoAdd : mirrored_op OpAdd OpAdd
| MoMul : mirrored_op OpMul OpMul
| MoLT : mirrored_op OpLT OpGT
| MoLE : mirrored_op OpLE OpGE
| MoGE : mirrored_op OpGE OpLE
| MoGT : mirrored_op OpGT OpLT.

(** literals but for null and regular expressions *)
Definition literal (e : expr) : Prop :=
  match e with EInt _ | EFloat _ | EStr _ | EBool _ => True | _ => False end.

(** x == l1 || x == l2 || ... *)
Definition one_of (x l : expr) (ls : list expr) : expr :=
  fold_left (fun acc y => EInner OpOr [acc; EInner OpEQ [x; y]]) ls (EInner OpEQ [x; l]).

(** @.a, calls of f() and of abs("x") *)
Definition r_a : expr := EInner OpDot [ECurrent; EName (b_of "a")].
Definition r_f (s : String.string) : expr := EInner OpCall [EName (b_of s)].
Definition r_abs : expr := EInner OpCall [EName (b_of "abs"); EStr (b_of "x")].
