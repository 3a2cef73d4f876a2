(** The model run on the project's own tests.  Examples of the model, not of its properties:
    they compare it with what the authors of the code say it does. *)
From Coq Require Import Ascii String.
From Verif Require Import Syntax Value Lexer Parser Coder Machine Program Api Listing Messages Debug SpecGrammar TestData.
Local Open Scope string_scope.
Local Open Scope list_scope.
Local Open Scope Z_scope.

(** ** The functions of the library, as far as the tests call them *)
Fixpoint entry {A} (s : bytes) (l : list (bytes * A)) : option A :=
  match l with [] => None | (k, a) :: r => if beqb s k then Some a else entry s r end.
Definition same_float (f g : f64) : bool :=
  match f, g with
  | S754_nan, S754_nan => true
  | S754_zero a, S754_zero b | S754_infinity a, S754_infinity b => Bool.eqb a b
  | S754_finite a m e, S754_finite b n d => Bool.eqb a b && (m =? n)%positive && (e =? d)
  | _, _ => false
  end.
Definition wrong_re : bytes := b_of "incorrect regexp)".
Definition tt_text : textoracles := mkText (fun s => entry s parsed) (fun s => negb (beqb s wrong_re)).
Definition tt_world : world :=
  mkWorld tt_text (fun p s => match entry p matched with Some l => existsb (beqb s) l | None => false end)
    (fun _ s => match entry s words with Some l => l | None => [s] end)
    (fun f => match find (fun p => same_float f (fst p)) printed with Some p => snd p | None => [] end)
    (fun _ => []) (fun _ => 0) (fun _ n => seq 0 n).
Fixpoint escaped_in (q : Z) (s : bytes) : bytes :=
  match s with
  | [] => []
  | c :: r => (if (c =? q) || (c =? 92) then [92; c] else [c]) ++ escaped_in q r
  end.
Definition tt_printers : printers :=
  mkPrinters (fun s => 34 :: escaped_in 34 s ++ [34]) (w_sprint_float tt_world).
Definition tt_messages : messages :=
  mkMessages
    (fun s => b_of "error parsing regexp: unexpected ): `" ++ s ++ b_of "`") (fun _ => []) (fun _ => []) (fun _ => true).

(** ** Comparing results *)
Definition as_num (v : val) : option f64 :=
  match v with VInt z | VInt64 z => Some (f_of_Z z) | VFloat f => Some f | _ => None end.
(** the same value; if [num], numbers are compared and not their types *)
Fixpoint same (num : bool) (a b : val) {struct a} : bool :=
  match a, b with
  | VNil, VNil => true
  | VBool x, VBool y => Bool.eqb x y
  | VStr x, VStr y => beqb x y
  | VInt x, VInt y | VInt64 x, VInt64 y => x =? y
  | VFloat x, VFloat y => same_float x y
  | VArr x, VArr y =>
      (fix all (x y : list val) : bool :=
         match x, y with
         | [], [] => true
         | a :: x, b :: y => same num a b && all x y
         | _, _ => false
         end) x y
  | VObj x, VObj y =>
      Nat.eqb (List.length x) (List.length y) &&
      (fix all (x : list (bytes * val)) : bool :=
         match x with
         | [] => true
         | (k, a) :: x => match entry k y with Some b => same num a b | None => false end && all x
         end) x
  | _, _ => num && match as_num a, as_num b with Some x, Some y => same_float x y | _, _ => false end
  end.
Fixpoint take (num : bool) (a : val) (l : list val) : option (list val) :=
  match l with
  | [] => None
  | b :: r => if same num a b then Some r else match take num a r with Some r' => Some (b :: r') | None => None end
  end.
(** mach/run_test.go:159-180 *)
Fixpoint reordered (num : bool) (x y : list val) : bool :=
  match x with
  | [] => match y with [] => true | _ => false end
  | a :: x => match take num a y with Some y' => reordered num x y' | None => false end
  end.

(** ** Paths *)
Definition run (s : bytes) (d : val) : option (list val) :=
  match JP_Compile tt_text s with
  | OK jp => match Run (Z.to_nat 20000) tt_world 0 (jp_prog jp) d with OK l => Some l | _ => None end
  | _ => None
  end.
Definition rejects (s : bytes) : option bytes :=
  match ParsePath tt_text s with Fail e => Some (perr_Error tt_printers tt_messages e) | _ => None end.
Definition is_some {A} (o : option A) : bool := match o with Some _ => true | None => false end.
Definition gives (o : option bytes) (w : bytes) : bool := match o with Some t => beqb t w | None => false end.

(** path_test.go:17-75: the text of the program or of the error *)
Definition check_t1 (c : bytes * bytes) : bool :=
  match snd c with
  | 33 :: msg => gives (rejects (fst c)) msg
  | w => match JP_Compile tt_text (fst c) with OK jp => gives (Program_String tt_printers (jp_prog jp)) w | _ => false end
  end.
Example t1_ok : forallb check_t1 t1 = true.
Proof. vm_compute. reflexivity. Qed.

(** mach/run_test.go:182-235,260-311 *)
Definition check (num : bool) (d : val) (c : bytes * want) : bool :=
  match snd c with
  | WError m => gives (rejects (fst c)) m
  | WAnyError => is_some (rejects (fst c))
  | WResult l | WOther l => match run (fst c) d with Some l' => reordered num l' l | None => false end
  | WNothing => is_some (run (fst c) d)
  | WParse => negb (is_some (rejects (fst c)))
  end.
Example group1_ok : forallb (fun g => forallb (check false (fst g)) (snd g)) group1 = true.
Proof. vm_compute. reflexivity. Qed.

(** The test of this file reports only the queries that fail to compile or run; these have
    other results than the ones in the file, by == of unlike operands, by the value and not
    the presence of a member deciding, and by .. including its root. *)
Definition unlike : list bytes := map b_of
  ["filter_expression_after_recursive_descent"; "filter_expression_with_current_object";
   "filter_expression_with_equals"; "filter_expression_with_equals_false";
   "filter_expression_with_equals_null"; "filter_expression_with_equals_number_with_fraction";
   "filter_expression_with_equals_string"; "filter_expression_with_equals_true";
   "filter_expression_with_negation_and_equals"; "filter_expression_with_not_equals";
   "filter_expression_with_value"; "filter_expression_with_value_after_recursive_descent";
   "filter_expression_without_value"].
Definition check_suite (c : bytes * (bytes * val * want)) : bool :=
  let '(id, (s, d, w)) := c in
  if existsb (beqb id) unlike then is_some (run s d) && negb (check true d (s, w)) else check true d (s, w).
Example suite_ok : forallb check_suite suite = true.
Proof. vm_compute. reflexivity. Qed.

(** example_test.go:26-56 *)
Example example_ok : forallb (fun c => match run (fst c) example_doc with Some l => same false (VArr l) (VArr (snd c)) | None => false end) example = true.
Proof. vm_compute. reflexivity. Qed.

(** mach/run_test.go:43-66 *)
Example book_ok : forallb (fun s => is_some (run s book)) book_queries = true.
Proof. vm_compute. reflexivity. Qed.

(** ** Functions *)
(** mach/fns_test.go:104-139 *)
Fixpoint collect (kids : list expr) : option (list val) :=
  match kids with
  | [] => Some []
  | k :: r =>
    let v := match k with
      | EInt z => Some (VInt64 z)
      | EFloat f => Some (VFloat f)
      | EStr s => Some (VStr s)
      | EInner OpNeg [EInt z] => Some (VInt64 (- z))
      | EInner OpNeg [EFloat f] => Some (VFloat (f_neg f))
      | EInner OpArray l =>
        (fix all (l : list expr) (acc : list val) : option val :=
           match l with
           | [] => Some (VArr acc)
           | EInt z :: l => all l (acc ++ [VInt64 z])
           | EFloat f :: l => all l (acc ++ [VFloat f])
           | EStr s :: l => all l (acc ++ [VStr s])
           | EInner OpNeg [EInt z] :: l => all l (acc ++ [VInt64 (- z)])
           | EInner OpNeg [EFloat f] :: l => all l (acc ++ [VFloat (f_neg f)])
           | _ => None
           end) l []
      | _ => None
      end in
    match v, collect r with Some v, Some l => Some (v :: l) | _, _ => None end
  end.
(** mach/fns_test.go:52-102 *)
Definition check_call (c : bytes * val) : bool :=
  match ParseScriptExpression tt_text (fst c) with
  | OK (EInner OpCall (EName f :: kids)) =>
    match collect kids with
    | Some args => match call tt_world 0 f args with OK (v, _) => same true v (snd c) | _ => false end
    | None => false
    end
  | _ => false
  end.
Example calls_ok : forallb check_call calls = true.
Proof. vm_compute. reflexivity. Qed.

(** ** Equality *)
(** mach/json_test.go:120-132 *)
Definition check_pair (c : val * val * bool) : bool :=
  let '(a, b, r) := c in Bool.eqb (eqVal tt_world a b) r && Bool.eqb (eqVal tt_world b a) r.
Example pairs_ok : forallb check_pair pairs = true.
Proof. vm_compute. reflexivity. Qed.

(** ** Tokens *)
(** paths/lex_test.go:62-81 *)
Definition tok_form (lx : lexeme) : bytes :=
  token_GoString (lx_tok lx) ++
  match lx_tok lx, lx_err lx with
  | TError, Some e => b_of ":" ++ perr_Error tt_printers tt_messages e
  | TString, _ => b_of ":" ++ lexval_GoString tt_printers (pr_float tt_printers) (lx_val lx)
  | t, _ => if hasVal t then b_of ":" ++ lexval_String tt_printers (lx_val lx) else []
  end.
(** paths/lex_test.go:90-116 *)
Definition next_lex (l : lexer) (nest : Z) (re : bool) : lexeme * lexer * Z * bool :=
  if 0 <? nest then
    let (lx, l1) := lexExpr tt_text l in
    match lx_tok lx with
    | TChar 40 => (lx, l1, nest + 1, re)
    | TChar 41 => (lx, l1, nest - 1, re)
    | TMatch => (lx, l1, nest, true)
    | TChar 47 => if re then let (lx', l2) := lexRegexp 47 l1 in (lx', l2, nest, false) else (lx, l1, nest, re)
    | _ => (lx, l1, nest, re)
    end
  else
    let (lx, l1) := lexPath tt_text l in
    match lx_tok lx with
    | TChar 40 | TFilter => (lx, l1, nest + 1, re)
    | _ => (lx, l1, nest, re)
    end.
(** paths/lex_test.go:118-168 *)
Fixpoint lexes (l : lexer) (nest : Z) (re : bool) (ws : list bytes) : bool :=
  match ws with
  | [] => rd_look (l_rd l) =? eof
  | w :: ws =>
    let '(lx, l1, nest1, re1) := next_lex l nest re in
    beqb (tok_form lx) w && (if tok_eqb (lx_tok lx) TError then true else lexes l1 nest1 re1 ws)
  end.
Example samples_ok : forallb (fun c => lexes (mkLexer (rd_of (fst c)) None) 0 false (snd c)) samples = true.
Proof. vm_compute. reflexivity. Qed.
