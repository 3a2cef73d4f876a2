(** Texts that have the same tokens: they differ in white space and in how literals are
    written.  A specification: nothing here refers to the lexer or parser. *)
From Verif Require Import Syntax SpecGrammar SpecTokens SpecSelect SpecText.
Local Open Scope Z_scope.

Section same.
Variable to_float : bytes -> option f64.
Variable lax : bool.

(** [same_tokens m s s']: from the place [m] on, the two texts consist of the same tokens *)
Inductive same_tokens : tmode -> bytes -> bytes -> Prop :=
| StEndPath : forall s s', ptok lax s GEnd [] -> ptok lax s' GEnd [] -> same_tokens InPath s s'
| StEndExpr : forall d b s s', etok to_float lax s GEnd [] -> etok to_float lax s' GEnd [] ->
    same_tokens (InExpr d b) s s'
| StPath : forall s s' t r r' m, ptok lax s t r -> ptok lax s' t r' -> path_next t = Some m ->
    same_tokens m r r' -> same_tokens InPath s s'
| StExpr : forall d b s s' t r r' m, etok to_float lax s t r -> etok to_float lax s' t r' ->
    expr_next d b t = Some m -> same_tokens m r r' -> same_tokens (InExpr d b) s s'
| StRegexp : forall d s s' t t' v r r',
    punct to_float lax s "/" (t ++ 47 :: r) -> re_body t v ->
    punct to_float lax s' "/" (t' ++ 47 :: r') -> re_body t' v ->
    same_tokens (InExpr d false) r r' -> same_tokens (InExpr d true) s s'.
End same.

(** ** Steps that are the same but for their notation *)

(** slices with the same bounds, where a missing stride is 1, a missing start is 0 unless the
    stride is negative, and an expression counts as 0 *)
Definition stride_of (sl : slice) : Z := or_default 1 (written_bound (sl_stride sl)).
Definition same_slice (sl sl' : slice) : Prop :=
  stride_of sl = stride_of sl' /\ written_bound (sl_end sl) = written_bound (sl_end sl') /\
  (written_bound (sl_start sl) = written_bound (sl_start sl') \/
   0 <= stride_of sl /\ or_default 0 (written_bound (sl_start sl)) = or_default 0 (written_bound (sl_start sl'))).

(** arguments of steps: a name may be quoted or parenthesised, and so may be an index.
    [back]: whether a negative index counts from the end. *)
Inductive same_arg (back back' : bool) : pval -> pval -> Prop :=
| SaName : forall k a a', In a [PName k; PStr k; PExpr (EStr k); PExpr (EName k)] ->
    In a' [PName k; PStr k; PExpr (EStr k); PExpr (EName k)] -> same_arg back back' a a'
| SaIndex : forall n a a', In a [PInt n; PExpr (EInt n)] -> In a' [PInt n; PExpr (EInt n)] ->
    back = back' \/ 0 <= n -> same_arg back back' a a'
| SaSlice : forall sl sl', same_slice sl sl' -> same_arg back back' (PSlice sl) (PSlice sl')
| SaExpr : forall e, back = back' -> same_arg back back' (PExpr e) (PExpr e).

(** a dot or brackets *)
Definition same_kind (o o' : op) : Prop :=
  In o [OpMember; OpSelect] /\ In o' [OpMember; OpSelect] \/
  In o [OpNestMember; OpNestSelect] /\ In o' [OpNestMember; OpNestSelect] \/
  o = OpUnion /\ o' = OpUnion \/ o = OpNestUnion /\ o' = OpNestUnion.

Inductive same_step : pstep -> pstep -> Prop :=
| SsSame : forall s, same_step s s
| SsNotation : forall o o' args args', same_kind o o' ->
    Forall2 (same_arg (counts_back o) (counts_back o')) args args' ->
    same_step (mkStep o args) (mkStep o' args').
