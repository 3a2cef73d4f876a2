(** Laws relating the results of different paths.  A specification. *)
From Verif Require Import Syntax Value Machine Coder Api SpecSelect SpecSem SpecText.

(** ** Filters *)
Definition filter_op (o : op) : Prop := o = OpFilter \/ o = OpNestFilter.

(** the path [s] compiles to [jp], and is the steps [pre] followed by the filter with the
    expression [e]: [?(e)] or ..[?(e)] *)
Definition filters (TX : textoracles) (pre : path) (o : op) (e : expr) (s : bytes) (jp : JSONPath) : Prop :=
  accepted TX s (pre ++ [mkStep o [PExpr e]]) jp /\ fits jp.

(** [interleaves a b l]: [l] is made of [a] and [b], each in its order *)
Inductive interleaves {A} : list A -> list A -> list A -> Prop :=
| InNil : interleaves [] [] []
| InLeft : forall x a b l, interleaves a b l -> interleaves (x :: a) b (x :: l)
| InRight : forall x a b l, interleaves a b l -> interleaves a (x :: b) (x :: l).

(** the elements of [l] that are marked *)
Definition chosen {A} (bs : list bool) (l : list A) : list A := map snd (filter fst (combine bs l)).

(** an expression without keys(), the only function that lists the members of an object *)
Definition keyless (e : expr) : Prop := forall args, ~ part_of (EInner OpCall (EName (b_of "keys") :: args)) e.

(** ** Selectors *)
(** a path of members, subscripts and unions, without *, filters and .. *)
Definition direct (ss : path) : Prop := Forall (fun s => is_select (st_op s) = true) ss.

(** ** Slices *)
(** the path [s] compiles to [jp] and consists of one subscript *)
Definition subscript (TX : textoracles) (a : pval) (s : bytes) (jp : JSONPath) : Prop :=
  accepted TX s [mkStep OpSelect [a]] jp /\ fits jp.

(** the place in an array of [len] elements a bound stands for: counted from the end if negative,
    and cut off at the ends *)
Definition place (len x : Z) : Z := Z.max 0 (Z.min len (if (x <? 0)%Z then x + len else x)).

(** an array's elements from one place up to another *)
Definition section {A} (p q : Z) (l : list A) : list A := firstn (Z.to_nat (q - p)) (skipn (Z.to_nat p) l).


Definition bound_of (x : option Z) : option bound := option_map BInt x.

(** ** Descent *)
(** a step and the .. step with the same selectors *)
Inductive nested : op -> op -> Prop :=
| NsMember : nested OpMember OpNestMember
| NsSelect : nested OpSelect OpNestSelect
| NsUnion : nested OpUnion OpNestUnion
| NsWild : nested OpWild OpNestWild.

(** names, strings and integers, as opposed to slices and expressions *)
Definition literal_key (a : pval) : Prop := match a with PName _ | PStr _ | PInt _ => True | _ => False end.

(** ** The document as a whole *)
(** a path whose expressions do not mention $ *)
Definition rootless (ss : path) : Prop := forall s e, In s ss -> In (PExpr e) (st_args s) -> ~ part_of ERoot e.
