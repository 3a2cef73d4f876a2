(** JSON documents and the values inside them.  A specification: nothing here refers
    to the machine. *)
From Verif Require Import Syntax Value.
Local Open Scope Z_scope.

(** [within x v]: [x] is [v] itself or one of its (transitive) elements or member values *)
Inductive within : val -> val -> Prop :=
| WSelf : forall v, within v v
| WElem : forall x e l, In e l -> within x e -> within x (VArr l)
| WMember : forall x k e m, In (k, e) m -> within x e -> within x (VObj m).

(** What encoding/json (with or without UseNumber), or a Go program that builds a
    document by hand from the same types and integers, can put at one node. *)
Definition json_node (v : val) : Prop :=
  match v with
  | VNil | VBool _ | VStr _ | VNum _ => True
  | VInt z | VInt64 z => in_int64 z
  | VFloat f => valid_binary f_prec f_emax f = true
  | VArr l => Z.of_nat (length l) <= max_int64
  | VObj m => NoDup (map fst m) /\ Z.of_nat (length m) <= max_int64
  | VName _ | VSlice _ | VRegexp _ | VErr _ => False
  end.

(** a document: every value in it is a JSON value *)
Definition doc (v : val) : Prop := forall x, within x v -> json_node x.

(** the values directly inside a value: elements, member values *)
Definition children (v : val) : list val :=
  match v with
  | VArr l => l
  | VObj m => map snd m
  | _ => []
  end.

(** no array in the document has more than [n] elements *)
Definition arrays_within (n : Z) (v : val) : Prop :=
  forall l, within (VArr l) v -> Z.of_nat (length l) <= n.
