(** Script expressions in paths.  A specification. *)
From Verif Require Import Base Syntax.
Local Open Scope Z_scope.

(** the three texts a script expression can be put in *)
Inductive framed (s : bytes) (e : expr) : bytes -> pstep -> Prop :=
| FrFilter : framed s e (b_of "$[?(" ++ s ++ b_of ")]") (mkStep OpFilter [PExpr e])
| FrSelect : framed s e (b_of "$[(" ++ s ++ b_of ")]") (mkStep OpSelect [PExpr e])
| FrMember : framed s e (b_of "$.(" ++ s ++ b_of ")") (mkStep OpMember [PExpr e]).
