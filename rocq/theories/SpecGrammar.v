(** The documented grammar of paths and script expressions as relations on texts:
    the comments of paths/parsepath.go:7-21, paths/parseexpr.go:94-187 and
    syntax/doc.go.  A specification: nothing here refers to the lexer or parser.

    Every relation has the form "a prefix of the text [s] is a phrase denoting x,
    and [r] is the remaining text". *)
From Verif Require Import Syntax SpecSyntax.
Local Open Scope Z_scope.

(** ** Characters *)
Definition digit (c : Z) : Prop := 48 <= c <= 57.
Definition hexdigit (c : Z) : Prop := 48 <= c <= 57 \/ 97 <= c <= 102 \/ 65 <= c <= 70.
(** letters: ASCII letters, underscore and every byte of a non-ASCII character *)
Definition letter (c : Z) : Prop := 97 <= c <= 122 \/ 65 <= c <= 90 \/ c = 95 \/ 128 <= c.
Definition space (c : Z) : Prop := c = 32 \/ 9 <= c <= 13.
Definition name_char (dash : bool) (c : Z) : Prop :=
  letter c \/ digit c \/ (dash = true /\ c = 45).

(** the text does not start with a character satisfying P *)
Definition not_next (P : Z -> Prop) (s : bytes) : Prop :=
  match s with [] => True | c :: _ => ~ P c end.

(** value of a digit string *)
Definition dec_val (ds : bytes) : Z := fold_left (fun a c => 10 * a + (c - 48)) ds 0.
Definition hex_digit_val (c : Z) : Z :=
  if c <=? 57 then c - 48 else if c <=? 70 then c - 55 else c - 87.
Definition hex_val (ds : bytes) : Z := fold_left (fun a c => 16 * a + hex_digit_val c) ds 0.

(** ** String literals *)

(** the text after a backslash, and the code it denotes *)
Inductive esc_item (q : Z) : bytes -> Z -> Prop :=
| EscBackslash : esc_item q [92] 92
| EscSlash : esc_item q [47] 47
| EscTab : esc_item q [116] 9
| EscFF : esc_item q [102] 12
| EscNL : esc_item q [110] 10
| EscCR : esc_item q [114] 13
| EscBS : esc_item q [98] 8
| EscQuote : esc_item q [q] q
| EscU : forall a b c d, hexdigit a -> hexdigit b -> hexdigit c -> hexdigit d ->
    esc_item q [117; a; b; c; d] (hex_val [a; b; c; d]).

Definition high_surrogate (r : Z) : bool := (55296 <=? r) && (r <=? 56319).
Definition low_surrogate (r : Z) : bool := (56320 <=? r) && (r <=? 57343).
Definition surrogate (r : Z) : bool := high_surrogate r || low_surrogate r.
Definition combine_pair (h l : Z) : Z := 65536 + (h - 55296) * 1024 + (l - 56320).
Definition replacement : bytes := [239; 191; 189].

(** The bytes denoted by a maximal run of adjacent escapes, as implemented: a
    surrogate takes the next escape as its partner; if the two are not a pair, the
    surrogate becomes U+FFFD and the partner stands for itself (U+FFFD again if it is a
    surrogate). *)
Fixpoint run_value (pending : option Z) (rs : list Z) : bytes :=
  match rs with
  | [] => match pending with None => [] | Some _ => replacement end
  | r :: rs' =>
    match pending with
    | None => if surrogate r then run_value (Some r) rs' else utf8_encode r ++ run_value None rs'
    | Some h =>
      if high_surrogate h && low_surrogate r
      then utf8_encode (combine_pair h r) ++ run_value None rs'
      else replacement ++ utf8_encode r ++ run_value None rs'
    end
  end.

(** The documented rule (as in JSON): a high surrogate directly followed by a low one
    is one character; any other surrogate is U+FFFD. *)
Fixpoint json_run (pending : option Z) (rs : list Z) : bytes :=
  match rs with
  | [] => match pending with None => [] | Some _ => replacement end
  | r :: rs' =>
    match pending with
    | None => if surrogate r then json_run (Some r) rs' else utf8_encode r ++ json_run None rs'
    | Some h =>
      if high_surrogate h && low_surrogate r
      then utf8_encode (combine_pair h r) ++ json_run None rs'
      else replacement ++ (if surrogate r then json_run (Some r) rs'
                           else utf8_encode r ++ json_run None rs')
    end
  end.

(** one or more adjacent escapes *)
Inductive esc_run (q : Z) : bytes -> list Z -> Prop :=
| RunOne : forall t r, esc_item q t r -> esc_run q (92 :: t) [r]
| RunMore : forall t r u rs, esc_item q t r -> esc_run q u rs ->
    esc_run q (92 :: t ++ u) (r :: rs).

(** the inside of a literal quoted by [q], and its value *)
Inductive str_body (q : Z) : bytes -> bytes -> Prop :=
| StrEnd : str_body q [] []
| StrChar : forall c t v, c <> q -> c <> 92 -> 32 <= c -> str_body q t v ->
    str_body q (c :: t) (c :: v)
| StrEsc : forall u rs t v, esc_run q u rs -> not_next (eq 92) t -> str_body q t v ->
    str_body q (u ++ t) (run_value None rs ++ v).

(** the inside of a literal that is never closed, the text ending in an escaped
    quote *)
Inductive str_open (q : Z) : bytes -> bytes -> Prop :=
| OpenEnd : forall u rs, esc_run q u rs -> (exists u', u = u' ++ [q]) ->
    str_open q u (run_value None rs)
| OpenChar : forall c t v, c <> q -> c <> 92 -> 32 <= c -> str_open q t v ->
    str_open q (c :: t) (c :: v)
| OpenEsc : forall u rs t v, esc_run q u rs -> not_next (eq 92) t -> str_open q t v ->
    str_open q (u ++ t) (run_value None rs ++ v).

(** ** Tokens *)
Inductive gtok : Type :=
| GPunct (p : bytes)
| GStr (s : bytes)
| GInt (z : Z)
| GReal (f : f64)
| GName (s : bytes)
| GEnd.

Definition path_puncts : list bytes :=
  map b_of ["("; ")"; "["; "]"; "*"; "$"; ":"; ","; "."; ".."; "?("]%string.
Definition expr_puncts : list bytes :=
  map b_of ["("; ")"; "["; "]"; "@"; "$"; "."; ","; "~"; "*"; "%"; "+"; "-"; "/";
            "&&"; "||"; "<"; "<="; ">"; ">="; "=="; "=~"; "!"; "!="]%string.

(** longest match *)
Definition longest (ps : list bytes) (p : bytes) (s : bytes) : Prop :=
  In p ps /\ forall p', In p' ps -> (exists t, s = p' ++ t) -> (length p' <= length p)%nat.

Section grammar.
(** the value strconv.ParseFloat gives a literal, and whether a pattern compiles *)
Variable to_float : bytes -> option f64.
Variable re_valid : bytes -> bool.
(** whether the text may end in a literal that is not closed because its last quote is
    escaped, as the implementation's lexer allows; the documented grammar is the one
    where [lax] is false *)
Variable lax : bool.

(** the exponent part of a literal *)
Inductive exponent : bytes -> Prop :=
| Exponent : forall e sg ds, e = 101 \/ e = 69 -> sg = [] \/ sg = [43] \/ sg = [45] ->
    ds <> [] -> Forall digit ds -> exponent (e :: sg ++ ds).

(** tokens common to paths and expressions, at the start of a text *)
Inductive tok1 (ps : list bytes) (dash : bool) : bytes -> gtok -> bytes -> Prop :=
| TokEnd : tok1 ps dash [] GEnd []
| TokPunct : forall p r, longest ps p (p ++ r) -> tok1 ps dash (p ++ r) (GPunct p) r
| TokStr : forall q t v r, q = 34 \/ q = 39 -> str_body q t v ->
    tok1 ps dash (q :: t ++ q :: r) (GStr v) r
| TokName : forall c t r, letter c -> Forall (name_char dash) t -> not_next (name_char dash) r ->
    tok1 ps dash (c :: t ++ r) (GName (c :: t)) r.

(** tokens of expressions, after white space *)
Inductive etok : bytes -> gtok -> bytes -> Prop :=
| ETok1 : forall w s t r, Forall space w -> tok1 expr_puncts false s t r -> etok (w ++ s) t r
| ETokInt : forall w ds r, Forall space w -> ds <> [] -> Forall digit ds ->
    not_next (fun c => digit c \/ c = 46) r -> dec_val ds < 2 ^ 63 ->
    etok (w ++ ds ++ r) (GInt (dec_val ds)) r
| ETokReal : forall w ds fs r f, Forall space w -> ds <> [] -> Forall digit ds ->
    Forall digit fs -> not_next (fun c => digit c \/ c = 101 \/ c = 69) r ->
    to_float (ds ++ 46 :: fs) = Some f ->
    etok (w ++ (ds ++ 46 :: fs) ++ r) (GReal f) r
| ETokRealExp : forall w ds fs ex r f, Forall space w -> ds <> [] -> Forall digit ds ->
    Forall digit fs -> exponent ex -> not_next digit r ->
    to_float (ds ++ 46 :: fs ++ ex) = Some f ->
    etok (w ++ (ds ++ 46 :: fs ++ ex) ++ r) (GReal f) r
| ETokUnclosed : forall w q t v, lax = true -> Forall space w -> q = 34 \/ q = 39 ->
    str_open q t v -> etok (w ++ q :: t) (GStr v) [].

(** tokens of paths, after white space *)
Inductive ptok : bytes -> gtok -> bytes -> Prop :=
| PTok1 : forall w s t r, Forall space w -> tok1 path_puncts true s t r -> ptok (w ++ s) t r
| PTokInt : forall w ds r, Forall space w -> ds <> [] -> Forall digit ds ->
    not_next digit r -> dec_val ds < 2 ^ 63 ->
    ptok (w ++ ds ++ r) (GInt (dec_val ds)) r
(** a signed integer; the magnitude 2^63-1 is not accepted after a sign *)
| PTokNeg : forall w w' ds r, Forall space w -> Forall space w' -> ds <> [] ->
    Forall digit ds -> not_next digit r -> dec_val ds < 2 ^ 63 - 1 ->
    ptok (w ++ 45 :: w' ++ ds ++ r) (GInt (- dec_val ds)) r
| PTokUnclosed : forall w q t v, lax = true -> Forall space w -> q = 34 \/ q = 39 ->
    str_open q t v -> ptok (w ++ q :: t) (GStr v) [].

(** ** Script expressions *)

(** binary operators with their precedence levels, loosest first *)
Definition op_table : list (bytes * op * nat) :=
  [ (b_of "||", OpOr, 0%nat);
    (b_of "&&", OpAnd, 1%nat);
    (b_of "==", OpEQ, 2%nat); (b_of "!=", OpNE, 2%nat);
    (b_of "<", OpLT, 3%nat); (b_of "<=", OpLE, 3%nat); (b_of ">", OpGT, 3%nat);
    (b_of ">=", OpGE, 3%nat); (b_of "~", OpMatch, 3%nat); (b_of "=~", OpMatch, 3%nat);
    (b_of "+", OpAdd, 4%nat); (b_of "-", OpSub, 4%nat);
    (b_of "*", OpMul, 5%nat); (b_of "/", OpDiv, 5%nat); (b_of "%", OpMod, 5%nat) ].

Inductive binary_op : bytes -> op -> nat -> bytes -> Prop :=
| BinPunct : forall s p o k r, In (p, o, k) op_table -> etok s (GPunct p) r -> binary_op s o k r
| BinIn : forall s r, etok s (GName (b_of "in")) r -> binary_op s OpIn 3 r
| BinNin : forall s r, etok s (GName (b_of "nin")) r -> binary_op s OpNin 3 r.

(** the inside of /.../: \/ stands for / *)
Inductive re_body : bytes -> bytes -> Prop :=
| ReEnd : re_body [] []
| ReSlash : forall t v, re_body t v -> re_body (92 :: 47 :: t) (47 :: v)
| ReChar : forall c t v, c <> 47 -> (c = 92 -> t <> [] /\ not_next (eq 47) t) ->
    re_body t v -> re_body (c :: t) (c :: v).

Definition punct (s : bytes) (p : string) (r : bytes) : Prop := etok s (GPunct (b_of p)) r.

(** the value of a name in operand position *)
Definition name_expr (s : bytes) : expr :=
  if beqb s (b_of "true") then EBool true
  else if beqb s (b_of "false") then EBool false
  else if beqb s (b_of "null") then ENull
  else EName s.

(** [g_expr k]: expressions whose outermost binary operator, if any, has level at
    least k; every operator groups to the left; unary operators bind tighter than
    binary ones and postfix forms tighter still *)
Inductive g_expr : nat -> bytes -> expr -> bytes -> Prop :=
| GUp : forall k s e r, (k < 6)%nat -> g_expr (S k) s e r -> g_expr k s e r
| GBin : forall k s a m o m' b r, g_expr k s a m -> binary_op m o k m' ->
    g_expr (S k) m' b r -> g_expr k s (EInner o [a; b]) r
| GUnary : forall s e r, g_unary s e r -> g_expr 6 s e r
with g_unary : bytes -> expr -> bytes -> Prop :=
| GNeg : forall s m e r, punct s "-" m -> g_unary m e r -> g_unary s (EInner OpNeg [e]) r
| GNot : forall s m e r, punct s "!" m -> g_unary m e r -> g_unary s (EInner OpNot [e]) r
| GPost : forall s e r, g_postfix s e r -> g_unary s e r
with g_postfix : bytes -> expr -> bytes -> Prop :=
| GAtom : forall s e r, g_atom s e r -> g_postfix s e r
| GCall : forall s f m m' l r, g_postfix s (EName f) m -> punct m "(" m' ->
    g_list ")" m' l r -> g_postfix s (EInner OpCall (EName f :: l)) r
| GIndex : forall s a m m' e m'' r, g_postfix s a m -> punct m "[" m' ->
    g_expr 0 m' e m'' -> punct m'' "]" r -> g_postfix s (EInner OpIndex [a; e]) r
| GDot : forall s a m m' n r, g_postfix s a m -> punct m "." m' ->
    etok m' (GName n) r -> g_postfix s (EInner OpDot [a; EName n]) r
with g_atom : bytes -> expr -> bytes -> Prop :=
| GRegexp : forall s m t v r, punct s "/" m -> m = t ++ 47 :: r -> re_body t v ->
    re_valid v = true -> g_atom s (ERegexp v) r
| GCurrent : forall s r, punct s "@" r -> g_atom s ECurrent r
| GRoot : forall s r, punct s "$" r -> g_atom s ERoot r
| GParen : forall s m e m' r, punct s "(" m -> g_expr 0 m e m' -> punct m' ")" r ->
    g_atom s e r
| GArray : forall s m l r, punct s "[" m -> g_list "]" m l r -> g_atom s (EInner OpArray l) r
| GNameAtom : forall s n r, etok s (GName n) r -> g_atom s (name_expr n) r
| GIntAtom : forall s z r, etok s (GInt z) r -> g_atom s (EInt z) r
| GRealAtom : forall s f r, etok s (GReal f) r -> g_atom s (EFloat f) r
| GStrAtom : forall s v r, etok s (GStr v) r -> g_atom s (EStr v) r
(** a possibly empty list of expressions and the closing bracket *)
with g_list : string -> bytes -> list expr -> bytes -> Prop :=
| GListNil : forall c s r, punct s c r -> g_list c s [] r
| GListCons : forall c s l m r, g_items s l m -> punct m c r -> g_list c s l r
with g_items : bytes -> list expr -> bytes -> Prop :=
| GItemsOne : forall s e r, g_expr 0 s e r -> g_items s [e] r
| GItemsMore : forall s e m m' l r, g_expr 0 s e m -> punct m "," m' -> g_items m' l r ->
    g_items s (e :: l) r.

(** a whole text is a script expression *)
Definition g_script (s : bytes) (e : expr) : Prop :=
  exists r, g_expr 0 s e r /\ etok r GEnd [].

(** ** Paths *)
Definition ppunct (s : bytes) (p : string) (r : bytes) : Prop := ptok s (GPunct (b_of p)) r.

(** "(" expr ")" *)
Inductive g_paren : bytes -> expr -> bytes -> Prop :=
| GPar : forall s m e m' r, ppunct s "(" m -> g_expr 0 m e m' -> ppunct m' ")" r ->
    g_paren s e r.

(** a bound of a slice *)
Inductive g_bound : bytes -> bound -> bytes -> Prop :=
| GBInt : forall s z r, ptok s (GInt z) r -> g_bound s (BInt z) r
| GBExpr : forall s e r, g_paren s e r -> g_bound s (BExpr e) r.

Inductive g_obound : bytes -> option bound -> bytes -> Prop :=
| GBNone : forall s, g_obound s None s
| GBSome : forall s b r, g_bound s b r -> g_obound s (Some b) r.

(** [start] ":" [end] [ ":" [stride] ] *)
Inductive g_slice : bytes -> slice -> bytes -> Prop :=
| GSlice2 : forall s a m m' b r, g_obound s a m -> ppunct m ":" m' -> g_obound m' b r ->
    g_slice s (mkSlice a b None) r
| GSlice3 : forall s a m m' b n n' c r, g_obound s a m -> ppunct m ":" m' ->
    g_obound m' b n -> ppunct n ":" n' -> g_obound n' c r ->
    g_slice s (mkSlice a b c) r.

(** an element of a union *)
Inductive g_elem : bytes -> pval -> bytes -> Prop :=
| GElInt : forall s z r, ptok s (GInt z) r -> g_elem s (PInt z) r
| GElStr : forall s v r, ptok s (GStr v) r -> g_elem s (PStr v) r
| GElName : forall s n r, ptok s (GName n) r -> g_elem s (PName n) r
| GElSlice : forall s sl r, g_slice s sl r -> g_elem s (PSlice sl) r.

Inductive g_elems : bytes -> list pval -> bytes -> Prop :=
| GElOne : forall s v r, g_elem s v r -> g_elems s [v] r
| GElMore : forall s v m m' l r, g_elem s v m -> ppunct m "," m' -> g_elems m' l r ->
    g_elems s (v :: l) r.

(** what stands between "[" and "]"; the operators are those of a "[...]" step *)
Inductive g_subscript : bytes -> pstep -> bytes -> Prop :=
| GSubWild : forall s r, ppunct s "*" r -> g_subscript s (mkStep OpWild []) r
| GSubFilter : forall s m e m' r, ppunct s "?(" m -> g_expr 0 m e m' -> ppunct m' ")" r ->
    g_subscript s (mkStep OpFilter [PExpr e]) r
| GSubExpr : forall s e r, g_paren s e r -> g_subscript s (mkStep OpSelect [PExpr e]) r
| GSubOne : forall s v r, g_elem s v r -> g_subscript s (mkStep OpSelect [v]) r
| GSubUnion : forall s l r, g_elems s l r -> (2 <= length l)%nat ->
    g_subscript s (mkStep OpUnion l) r.

Inductive g_member : bytes -> pstep -> bytes -> Prop :=
| GMemWild : forall s r, ppunct s "*" r -> g_member s (mkStep OpWild []) r
| GMemName : forall s n r, ptok s (GName n) r -> g_member s (mkStep OpMember [PName n]) r
| GMemInt : forall s z r, ptok s (GInt z) r -> g_member s (mkStep OpMember [PInt z]) r
| GMemExpr : forall s e r, g_paren s e r -> g_member s (mkStep OpMember [PExpr e]) r.

(** the ".." form of a step *)
Definition nested (st : pstep) : pstep :=
  mkStep (match st_op st with
          | OpWild => OpNestWild | OpMember => OpNestMember | OpSelect => OpNestSelect
          | OpUnion => OpNestUnion | OpFilter => OpNestFilter | o => o
          end) (st_args st).

Inductive g_step : bytes -> pstep -> bytes -> Prop :=
| GStepMember : forall s m st r, ppunct s "." m -> g_member m st r -> g_step s st r
| GStepSub : forall s m st m' r, ppunct s "[" m -> g_subscript m st m' -> ppunct m' "]" r ->
    g_step s st r
| GStepNestMember : forall s m st r, ppunct s ".." m -> g_member m st r ->
    g_step s (nested st) r
| GStepNestSub : forall s n m st m' r, ppunct s ".." n -> ppunct n "[" m ->
    g_subscript m st m' -> ppunct m' "]" r -> g_step s (nested st) r.

Inductive g_steps : bytes -> path -> Prop :=
| GStepsEnd : forall s, ptok s GEnd [] -> g_steps s []
| GStepsMore : forall s st m p, g_step s st m -> g_steps m p -> g_steps s (st :: p).

(** a whole text is a path *)
Definition g_path (s : bytes) (p : path) : Prop :=
  exists m, ppunct s "$" m /\ g_steps m p.

End grammar.

Scheme g_expr_mind := Minimality for g_expr Sort Prop
  with g_unary_mind := Minimality for g_unary Sort Prop
  with g_postfix_mind := Minimality for g_postfix Sort Prop
  with g_atom_mind := Minimality for g_atom Sort Prop
  with g_list_mind := Minimality for g_list Sort Prop
  with g_items_mind := Minimality for g_items Sort Prop.
Combined Scheme g_expr_mutind from g_expr_mind, g_unary_mind, g_postfix_mind, g_atom_mind,
  g_list_mind, g_items_mind.

(** the text ends in a quote written after a backslash *)
Definition ends_in_escaped_quote (s : bytes) : Prop :=
  exists u q, (q = 34 \/ q = 39) /\ s = u ++ [92; q].

(** the conversion of a text starting with a digit gives neither NaN nor -0 *)
Definition literal_floats (to_float : bytes -> option f64) : Prop :=
  forall c t f, digit c -> to_float (c :: t) = Some f -> lit_float f.
