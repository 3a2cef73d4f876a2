(** The parsers.  Models paths/parser.go, paths/parsepath.go and
    paths/parseexpr.go.  A parsing method is a function from the lexer state to an
    outcome holding a result and the new lexer state.  The recursive methods take
    fuel; [OutOfFuel] is proved unreachable from the entry points. *)
From Verif Require Export Lexer.
Local Open Scope Z_scope.

(** a parsing function, e.g. paths/parseexpr.go:72: a result and the state of the lexer
    afterwards, or an error *)
Definition P (A : Type) : Type := outcome perr (A * lexer).

(** paths/lex.go:51-64, lexeme.s, lexeme.i, lexeme.f: a failed type assertion panics *)
Definition lx_s (lx : lexeme) : outcome perr bytes :=
  match lx_val lx with LStr s => OK s | _ => Panics end.
Definition lx_i (lx : lexeme) : outcome perr Z :=
  match lx_val lx with LInt z => OK z | _ => Panics end.
Definition lx_f (lx : lexeme) : outcome perr f64 :=
  match lx_val lx with LFloat f => OK f | _ => Panics end.

(** paths/lex.go:95-98 *)
Definition l_offset (l : lexer) : Z := rd_offset (l_rd l).

(** paths/lex.go:77-84 lexer.unget, with its panic *)
Definition p_unget (lx : lexeme) (l : lexer) : outcome perr lexer :=
  match unget lx l with None => Panics | Some l' => OK l' end.

(** paths/lex.go:86-93 lexer.look, applied to a lexeme just read *)
Definition p_look (r : lexeme * lexer) : P token :=
  let (lx, l) := r in
  let! l' := p_unget lx l in
  OK (match lx_err lx with Some _ => TError | None => lx_tok lx end, l').

(** paths/parser.go:17-26, applied to a lexeme just read *)
Definition p_expect (r : lexeme * lexer) (nt : token) : outcome perr lexer :=
  let (lx, l) := r in
  match lx_err lx with
  | Some e => Fail (EExpectedErr nt (l_offset l) e)
  | None => if tok_eqb (lx_tok lx) nt then OK l
            else Fail (EExpectedTok nt (l_offset l) (lx_tok lx))
  end.

(** paths/parseexpr.go:250-288 *)
Definition tok2op (t : token) : op :=
  match t with
  | TChar c =>
    if c =? 42 then OpMul
    else if c =? 43 then OpAdd
    else if c =? 45 then OpSub
    else if c =? 47 then OpDiv
    else if c =? 37 then OpMod
    else if c =? 60 then OpLT
    else if c =? 62 then OpGT
    else if c =? 126 then OpMatch
    else OpError
  | TEQ => OpEQ
  | TNE => OpNE
  | TLE => OpLE
  | TGE => OpGE
  | TAnd => OpAnd
  | TOr => OpOr
  | TMatch => OpMatch
  | TIn => OpIn
  | TNin => OpNin
  | _ => OpError
  end.

(** the words of paths/parseexpr.go:33-47,188-248 *)
Definition kw_in : bytes := b_of "in".
Definition kw_nin : bytes := b_of "nin".
Definition kw_true : bytes := b_of "true".
Definition kw_false : bytes := b_of "false".
Definition kw_null : bytes := b_of "null".

(** paths/parseexpr.go:32-47 *)
Definition lexOp (O : textoracles) (l : lexer) : P lexeme :=
  let (lx, l') := lexExpr O l in
  let tok := match lx_err lx with Some _ => TError | None => lx_tok lx end in
  match tok with
  | TID =>
    let! s := lx_s lx in
    OK (mkLex (if beqb s kw_in then TIn else if beqb s kw_nin then TNin else TID)
              (lx_val lx) (lx_err lx), l')
  | _ => OK (mkLex tok (lx_val lx) (lx_err lx), l')
  end.

(** paths/parseexpr.go:49-54 *)
Definition lookOp (O : textoracles) (l : lexer) : P token :=
  let! (lx, l1) := lexOp O l in
  let! l2 := p_unget lx l1 in
  OK (lx_tok lx, l2).

(** paths/parseexpr.go:27-30 and paths/parsepath.go:28-30 *)
Definition lookExpr (O : textoracles) (l : lexer) : P token := p_look (lexExpr O l).
Definition lookPath (O : textoracles) (l : lexer) : P token := p_look (lexPath O l).

(** paths/parseexpr.go:56-59 *)
Definition advanceExpr (O : textoracles) (l : lexer) : lexer := snd (lexExpr O l).

Section parser.
Variable TX : textoracles.

(** paths/parseexpr.go:66-248: expr, unary, primary, application, parseExprList,
    primary1, with one function for each loop. *)
Fixpoint p_expr (n : nat) (pri : Z) (l : lexer) {struct n} : P expr :=
  match n with
  | O => OutOfFuel
  | S n =>
    let! (e, l1) := p_primary n l in
    p_expr_loop n pri e l1
  end

(** the loop of expr, lines 78-90 *)
with p_expr_loop (n : nat) (pri : Z) (e : expr) (l : lexer) {struct n} : P expr :=
  match n with
  | O => OutOfFuel
  | S n =>
    let! (t, l1) := lookOp TX l in
    if precedence (tok2op t) >=? pri then
      let! (lx, l2) := lexOp TX l1 in
      match lx_err lx with
      | Some er => Fail er
      | None =>
        let o := tok2op (lx_tok lx) in
        let! (rhs, l3) := p_expr n (precedence o + associativity o) l2 in
        p_expr_loop n pri (EInner o [e; rhs]) l3
      end
    else OK (e, l1)
  end

(** lines 94-102 *)
with p_unary (n : nat) (o : op) (l : lexer) {struct n} : P expr :=
  match n with
  | O => OutOfFuel
  | S n =>
    let! (arg, l1) := p_primary n l in
    OK (EInner o [arg], l1)
  end

(** lines 104-149 *)
with p_primary (n : nat) (l : lexer) {struct n} : P expr :=
  match n with
  | O => OutOfFuel
  | S n =>
    let! (e, l1) := p_primary1 n l in
    p_primary_loop n e l1
  end

(** the loop of primary, lines 110-148 *)
with p_primary_loop (n : nat) (e : expr) (l : lexer) {struct n} : P expr :=
  match n with
  | O => OutOfFuel
  | S n =>
    let! (t, l1) := lookExpr TX l in
    match t with
    | TChar c =>
      if c =? 40 then
        if negb (op_beq (opcode e) OpID) then Fail (ENotCallable (opcode e))
        else
          let l2 := advanceExpr TX l1 in
          let! (e', l3) := p_application n OpCall (TChar 41) [e] l2 in
          p_primary_loop n e' l3
      else if c =? 91 then
        let l2 := advanceExpr TX l1 in
        let! (ix, l3) := p_expr n 0 l2 in
        let! l4 := p_expect (lexExpr TX l3) (TChar 93) in
        p_primary_loop n (EInner OpIndex [e; ix]) l4
      else if c =? 46 then
        let l2 := advanceExpr TX l1 in
        let (lx, l3) := lexExpr TX l2 in
        match lx_err lx with
        | Some er => Fail er
        | None =>
          if negb (tok_eqb (lx_tok lx) TID) then Fail ENoSelId
          else
            let! s := lx_s lx in
            p_primary_loop n (EInner OpDot [e; EName s]) l3
        end
      else OK (e, l1)
    | _ => OK (e, l1)
    end
  end

(** lines 151-169; [args] holds the optional expression e *)
with p_application (n : nat) (o : op) (end_ : token) (args : list expr) (l : lexer) {struct n} : P expr :=
  match n with
  | O => OutOfFuel
  | S n =>
    let! (t, l1) := lookExpr TX l in
    let! (args', l2) :=
      if negb (tok_eqb t end_) then p_exprlist n args l1 else OK (args, l1) in
    let! l3 := p_expect (lexExpr TX l2) end_ in
    OK (EInner o args', l3)
  end

(** lines 171-185 *)
with p_exprlist (n : nat) (list_ : list expr) (l : lexer) {struct n} : P (list expr) :=
  match n with
  | O => OutOfFuel
  | S n =>
    let! (e, l1) := p_expr n 0 l in
    let list_' := list_ ++ [e] in
    let! (t, l2) := lookExpr TX l1 in
    if negb (tok_eqb t (TChar 44)) then OK (list_', l2)
    else p_exprlist n list_' (advanceExpr TX l2)
  end

(** lines 187-248 *)
with p_primary1 (n : nat) (l : lexer) {struct n} : P expr :=
  match n with
  | O => OutOfFuel
  | S n =>
    let (lx, l1) := lexExpr TX l in
    match lx_err lx with
    | Some er => Fail er
    | None =>
      match lx_tok lx with
      | TChar c =>
        if c =? 45 then p_unary n OpNeg l1
        else if c =? 33 then p_unary n OpNot l1
        else if c =? 47 then
          let (lr, l2) := lexRegexp 47 l1 in
          match lx_err lr with
          | Some er => Fail er
          | None =>
            let! s := lx_s lr in
            if o_re_ok TX s then OK (ERegexp s, l2)
            else Fail (ERegexpSyntax s (l_offset l1))
          end
        else if c =? 64 then OK (ECurrent, l1)
        else if c =? 36 then OK (ERoot, l1)
        else if c =? 40 then
          let! (e, l2) := p_expr n 0 l1 in
          let! l3 := p_expect (lexExpr TX l2) (TChar 41) in
          OK (e, l3)
        else if c =? 91 then p_application n OpArray (TChar 93) [] l1
        else Fail (ETerm (TChar c))
      | TID =>
        let! s := lx_s lx in
        if beqb s kw_true then OK (EBool true, l1)
        else if beqb s kw_false then OK (EBool false, l1)
        else if beqb s kw_null then OK (ENull, l1)
        else OK (EName s, l1)
      | TInt => let! z := lx_i lx in OK (EInt z, l1)
      | TReal => let! f := lx_f lx in OK (EFloat f, l1)
      | TString => let! s := lx_s lx in OK (EStr s, l1)
      | t => Fail (ETerm t)
      end
    end
  end.

(** Fuel for an expression: every nested call or loop iteration consumes a
    token, and at most six calls separate two tokens. *)
Definition expr_fuel (l : lexer) : nat :=
  (8 * (length (rd_after (l_rd l)) + 2))%nat.

(** paths/parseexpr.go:61-64 *)
Definition p_script (l : lexer) : P expr := p_expr (expr_fuel l) 0 l.

(** paths/parsepath.go:331-342 *)
Definition p_paren (l : lexer) : P expr :=
  let! (e, l1) := p_script l in
  let! l2 := p_expect (lexPath TX l1) (TChar 41) in
  OK (e, l2).

(** paths/parsepath.go:287-301.  In the default case Go reports the token, not
    the token's error. *)
Definition p_slice_val (l : lexer) : P bound :=
  let (lx, l1) := lexPath TX l in
  match lx_tok lx with
  | TChar c =>
    if c =? 40 then let! (e, l2) := p_paren l1 in OK (BExpr e, l2)
    else Fail (EUnexpectedTok (TChar c) (l_offset l1))
  | TInt => let! z := lx_i lx in OK (BInt z, l1)
  | t => Fail (EUnexpectedTok t (l_offset l1))
  end.

(** the tests at paths/parsepath.go:244-285 *)
Definition is_end_tok (t : token) : bool := tok_eqb t (TChar 44) || tok_eqb t (TChar 93).

(** paths/parsepath.go:265-284: the part of parseSlice after the end value *)
Definition p_slice_tail (start end_ : option bound) (l : lexer) : P slice :=
  let! (t, l1) := lookPath TX l in
  if is_end_tok t then OK (mkSlice start end_ None, l1)
  else if tok_eqb t (TChar 58) then
    let (_, l2) := lexPath TX l1 in
    let! (t2, l3) := lookPath TX l2 in
    if is_end_tok t2 then OK (mkSlice start end_ None, l3)
    else
      let! (e, l4) := p_slice_val l3 in
      OK (mkSlice start end_ (Some e), l4)
  else
    let! (t3, l2) := lookPath TX l1 in
    Fail (ESliceTok t3 (l_offset l2)).

(** paths/parsepath.go:244-285; the step OpSelect with one Slice argument *)
Definition p_slice (start : option bound) (l : lexer) : P pstep :=
  let! (t, l1) := lookPath TX l in
  let! (sl, l2) :=
    if is_end_tok t then OK (mkSlice start None None, l1)
    else if negb (tok_eqb t (TChar 58)) then
      let! (e, l2) := p_slice_val l1 in p_slice_tail start (Some e) l2
    else p_slice_tail start None l1 in
  OK (mkStep OpSelect [PSlice sl], l2).

(** paths/parsepath.go:185-242 *)
Definition p_val (l : lexer) : P pstep :=
  let (lx, l1) := lexPath TX l in
  match lx_err lx with
  | Some er => Fail er
  | None =>
    match lx_tok lx with
    | TChar c =>
      if c =? 42 then OK (mkStep OpWild [], l1)
      else if c =? 40 then
        let! (e, l2) := p_paren l1 in
        let! (t, l3) := lookPath TX l2 in
        if tok_eqb t (TChar 58) then
          let (_, l4) := lexPath TX l3 in p_slice (Some (BExpr e)) l4
        else OK (mkStep OpExp [PExpr e], l3)
      else if c =? 58 then p_slice None l1
      else Fail (EUnexpectedTok (TChar c) (l_offset l1))
    | TFilter =>
      let! (e, l2) := p_paren l1 in
      OK (mkStep OpFilter [PExpr e], l2)
    | TInt =>
      let! z := lx_i lx in
      let! (t, l2) := lookPath TX l1 in
      if tok_eqb t (TChar 58) then
        let (_, l3) := lexPath TX l2 in p_slice (Some (BInt z)) l3
      else OK (mkStep OpInt [PInt z], l2)
    | TString => let! s := lx_s lx in OK (mkStep OpString [PStr s], l1)
    | TID => let! s := lx_s lx in OK (mkStep OpID [PName s], l1)
    | t => Fail (EUnexpectedTok t (l_offset l1))
    end
  end.

(** paths/parsepath.go:165-183 *)
Fixpoint p_val_list (n : nat) (acc : list pstep) (l : lexer) : P (list pstep) :=
  match n with
  | O => OutOfFuel
  | S n =>
    let! (s, l1) := p_val l in
    let! (t, l2) := lookPath TX l1 in
    if negb (tok_eqb t (TChar 44)) then OK (acc ++ [s], l2)
    else let (_, l3) := lexPath TX l2 in p_val_list n (acc ++ [s]) l3
  end.

(** fuel for the loop of paths/parsepath.go:165-183: every element has a token *)
Definition list_fuel (l : lexer) : nat := S (S (length (rd_after (l_rd l)))).

(** the check of paths/parsepath.go:131-140 *)
Fixpoint union_bad (steps : list pstep) : option op :=
  match steps with
  | [] => None
  | s :: r =>
    match st_op s with
    | OpWild | OpExp | OpFilter => Some (st_op s)
    | _ => union_bad r
    end
  end.

(** the loop of paths/parsepath.go:151-157 *)
Fixpoint union_args (steps : list pstep) : outcome perr (list pval) :=
  match steps with
  | [] => OK []
  | s :: r =>
    match st_args s with
    | [a] => let! r' := union_args r in OK (a :: r')
    | _ => Panics
    end
  end.

(** paths/parsepath.go:131-162: classify the list of elements *)
Definition subscript_step (steps : list pstep) : outcome perr pstep :=
  match (if (1 <? Z.of_nat (length steps)) then union_bad steps else None) with
  | Some o => Fail (EInUnion o)
  | None =>
    match steps with
    | [] => Panics
    | s0 :: _ =>
      match st_op s0 with
      | OpWild | OpFilter => OK s0
      | OpExp => OK (mkStep OpSelect (st_args s0))
      | _ =>
        let! args := union_args steps in
        OK (mkStep (match args with [_] => OpSelect | _ => OpUnion end) args)
      end
    end
  end.

(** paths/parsepath.go:118-163 *)
Definition p_subscript (l : lexer) : P pstep :=
  let! (steps, l1) := p_val_list (list_fuel l) [] l in
  let! s := subscript_step steps in
  OK (s, l1).

(** paths/parsepath.go:104-116 *)
Definition p_brackets (l : lexer) : P pstep :=
  let! (s, l1) := p_subscript l in
  let! l2 := p_expect (lexPath TX l1) (TChar 93) in
  OK (s, l2).

(** paths/parsepath.go:303-329; [None] is OpWild *)
Definition p_member (l : lexer) : P (option pval) :=
  let (lx, l1) := lexPath TX l in
  match lx_err lx with
  | Some er => Fail er
  | None =>
    match lx_tok lx with
    | TChar c =>
      if c =? 42 then OK (None, l1)
      else if c =? 40 then let! (e, l2) := p_paren l1 in OK (Some (PExpr e), l2)
      else Fail (EUnexpectedTok (TChar c) (l_offset l1))
    | TID => let! s := lx_s lx in OK (Some (PName s), l1)
    | TInt => let! z := lx_i lx in OK (Some (PInt z), l1)
    | t => Fail (EUnexpectedTok t (l_offset l1))
    end
  end.

(** paths/parsepath.go:65-77 *)
Definition nest_op (o : op) : outcome perr op :=
  match o with
  | OpSelect | OpExp => OK OpNestSelect
  | OpUnion => OK OpNestUnion
  | OpWild => OK OpNestWild
  | OpFilter => OK OpNestFilter
  | _ => Panics
  end.

(** the loop of paths/parsepath.go:40-101 *)
Fixpoint p_path_loop (n : nat) (acc : path) (l : lexer) : P path :=
  match n with
  | O => OutOfFuel
  | S n =>
    let (lx, l1) := lexPath TX l in
    match lx_tok lx with
    | TEOF => OK (acc, l1)
    | TError => match lx_err lx with Some er => Fail er | None => Panics end
    | TChar c =>
      if c =? 46 then
        let! (m, l2) := p_member l1 in
        p_path_loop n (acc ++ [match m with
                               | None => mkStep OpWild []
                               | Some v => mkStep OpMember [v]
                               end]) l2
      else if c =? 91 then
        let! (s, l2) := p_brackets l1 in
        p_path_loop n (acc ++ [s]) l2
      else Fail (EUnexpectedLex (TChar c) (lx_val lx))
    | TNest =>
      let! (t, l2) := lookPath TX l1 in
      if tok_eqb t (TChar 91) then
        let (_, l3) := lexPath TX l2 in
        let! (s, l4) := p_brackets l3 in
        let! o := nest_op (st_op s) in
        p_path_loop n (acc ++ [mkStep o (st_args s)]) l4
      else
        let! (m, l3) := p_member l2 in
        p_path_loop n (acc ++ [match m with
                               | None => mkStep OpNestWild []
                               | Some v => mkStep OpNestMember [v]
                               end]) l3
    | t => Fail (EUnexpectedLex t (lx_val lx))
    end
  end.

(** paths/parsepath.go:32-102 *)
Definition p_path (l : lexer) : P path :=
  let! l1 := p_expect (lexPath TX l) (TChar 36) in
  p_path_loop (list_fuel l1) [] l1.

(** paths/lex.go:73-75, paths/parser.go:12-15 *)
Definition new_parser (s : bytes) : lexer := mkLexer (rd_of s) None.

(** paths/parsepath.go:23-26 *)
Definition ParsePath (s : bytes) : outcome perr path :=
  let! (p, _) := p_path (new_parser s) in OK p.

(** paths/parseexpr.go:12-25.  At the end only the token is inspected. *)
Definition ParseScriptExpression (s : bytes) : outcome perr expr :=
  let! (e, l) := p_script (new_parser s) in
  let (lx, l1) := lexExpr TX l in
  if negb (tok_eqb (lx_tok lx) TEOF) then Fail (EMissingOp (l_offset l1) (lx_tok lx))
  else OK e.

End parser.
