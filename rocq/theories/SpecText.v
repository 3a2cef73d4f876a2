(** Paths as their users see them: texts, what is written in them, and what they compile
    to.  A specification. *)
From Verif Require Import Syntax SpecGrammar Lexer Parser Coder Api.
Local Open Scope Z_scope.

(** [accepted TX s ss jp]: the text [s] is a path with the steps [ss], and compiles to [jp];
    floating-point literals are read as Go reads them, neither NaN nor -0 *)
Definition accepted (TX : textoracles) (s : bytes) (ss : path) (jp : JSONPath) : Prop :=
  is_bytes s /\ literal_floats (o_parse_float TX) /\ ParsePath TX s = OK ss /\ JP_Compile TX s = OK jp.

(** the program has fewer than 2^22 orders; every path of up to 3 MiB does (C12_short) *)
Definition fits (jp : JSONPath) : Prop := prog_size (jp_prog jp) < 4194304.

(** some step is a filter *)
Definition has_filter (ss : path) : Prop :=
  exists s, In s ss /\ (st_op s = OpFilter \/ st_op s = OpNestFilter).

(** the bound of a slice; bounds that are expressions count as 0, as they do in the code *)
Definition written_bound (b : option bound) : option Z :=
  match b with Some (BInt z) => Some z | Some (BExpr _) => Some 0 | None => None end.

(** [slice_in ss a b c]: a slice with these bounds occurs in the path *)
Definition slice_in (ss : path) (a b c : option Z) : Prop :=
  exists s sl, In s ss /\ In (PSlice sl) (st_args s) /\
    a = written_bound (sl_start sl) /\ b = written_bound (sl_end sl) /\ c = written_bound (sl_stride sl).
