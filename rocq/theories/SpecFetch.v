(** The short evaluator of [SpecTake] with filters and scripts made of members, elements,
    lengths, literals, arithmetic, comparisons, arrays, matches, logic and functions.  A
    specification: nothing of the machine but the names of its errors. *)
From Coq Require Import Permutation.
From Verif Require Import Base Syntax Value Fns SpecSelect SpecExpr SpecText SpecOnce SpecFind SpecTake SpecListed.
Local Open Scope Z_scope.

(** ** Values *)

(** whether a value counts as true; a json.Number counts as the number it is the text of *)
Definition truth (TX : textoracles) (v : val) : bool :=
  match v with
  | VNil | VErr _ | VFloat S754_nan | VFloat (S754_zero _) | VStr [] => false
  | VBool b => b
  | VInt z | VInt64 z => negb (z =? 0)
  | VNum s =>
      match parse_int s, o_parse_float TX s with
      | Some z, _ => negb (z =? 0)
      | None, Some (S754_zero _) => false
      | None, Some _ => true
      | None, None => negb (match s with [] => true | _ => false end)
      end
  | _ => true
  end.

Fixpoint text_order (s t : bytes) : comparison :=
  match s, t with
  | [], [] => Eq
  | [], _ :: _ => Lt
  | _ :: _, [] => Gt
  | c :: s, d :: t => match c ?= d with Eq => text_order s t | o => o end
  end.
Definition whole (v : val) : option Z :=
  match v with VInt z | VInt64 z => Some z | VBool b => Some (if b then 1 else 0) | _ => None end.
Definition real_num (v : val) : option f64 :=
  match v with VFloat f => Some f | v => option_map nearest (whole v) end.
(** the order of two values, if they have one *)
Definition order_of (a b : val) : option comparison :=
  match a, b with
  | VStr s, VStr t => Some (text_order s t)
  | a, b =>
      match whole a, whole b with
      | Some x, Some y => Some (x ?= y)
      | _, _ => match real_num a, real_num b with Some x, Some y => SFcompare x y | _, _ => None end
      end
  end.
Definition relates (o : op) (c : option comparison) : bool :=
  match o, c with
  | OpLT, Some Lt | OpLE, Some Lt | OpLE, Some Eq | OpGT, Some Gt | OpGE, Some Gt | OpGE, Some Eq => true
  | _, _ => false
  end.

(** ** Arithmetic *)

(** the integer of 64 bits that an integer is reduced to *)
Definition reduced (z : Z) : Z := (z + 2 ^ 63) mod 2 ^ 64 - 2 ^ 63.
(** the operators on integers and on doubles; nothing can be divided by zero.  ([f_mod] stands for
    math.Mod.) *)
Definition int_op (o : op) (x y : Z) : option Z :=
  match o with
  | OpAdd => Some (reduced (x + y))
  | OpSub => Some (reduced (x - y))
  | OpMul => Some (reduced (x * y))
  | OpMod => if y =? 0 then None else Some (Z.rem x y)
  | _ => if y =? 0 then None else Some (reduced (Z.quot x y))
  end.
Definition float_op (o : op) (x y : f64) : option f64 :=
  match o with
  | OpAdd => Some (SFadd 53 1024 x y)
  | OpSub => Some (SFsub 53 1024 x y)
  | OpMul => Some (SFmul 53 1024 x y)
  | OpMod => match y with S754_zero _ => None | _ => Some (f_mod x y) end
  | _ => match y with S754_zero _ => None | _ => Some (SFdiv 53 1024 x y) end
  end.
(** the integer that unary - takes a value for, if that is no double *)
Definition int_for (v : val) : Z :=
  match v with
  | VStr s | VNum s => match parse_int s with Some n => n | None => 0 end
  | v => match whole v with Some n => n | None => 0 end
  end.

(** failures *)
Definition failed : val := VErr KFailure.
Definition succeeds (v : val) : bool := match v with VErr _ => false | _ => true end.
Definition first_of (l : list val) : val := match l with v :: _ => v | [] => failed end.

(** a sum, difference, product, quotient or remainder; failure if an argument is no number *)
Definition arithmetic (o : op) (a b : val) : val :=
  match whole a, whole b with
  | Some x, Some y => match int_op o x y with Some z => VInt64 z | None => failed end
  | _, _ =>
      match real_num a, real_num b with
      | Some x, Some y => match float_op o x y with Some f => VFloat f | None => failed end
      | _, _ => failed
      end
  end.
Definition negative (v : val) : val :=
  match v with
  | VErr _ => failed
  | VFloat f => VFloat (SFopp f)
  | v => VInt64 (reduced (- int_for v))
  end.

(** ** Functions *)

(** the numbers of an array, if it has nothing else *)
Fixpoint reals (l : list val) : option (list f64) :=
  match l with
  | [] => Some []
  | v :: l => match real_num v, reals l with Some x, Some xs => Some (x :: xs) | _, _ => None end
  end.
Definition elements (v : val) : list val := match v with VArr l => l | _ => [] end.
Definition wrong : val := VErr KType.
Definition folded (f : list f64 -> val) (v : val) : val :=
  match v with VArr l => match reals l with Some xs => f xs | None => wrong end | _ => wrong end.
Definition total (xs : list f64) : f64 := fold_left (SFadd 53 1024) xs (S754_zero false).
(** the first of an array's numbers or texts that no other is better than or, for texts, before *)
Fixpoint all_texts (l : list val) : option (list bytes) :=
  match l with
  | [] => Some []
  | VStr s :: l => option_map (cons s) (all_texts l)
  | _ => None
  end.
Definition best (better : f64 -> f64 -> bool) (l : list val) : val :=
  match l with
  | [] => VNil
  | VStr s :: l =>
      match all_texts l with
      | Some ts => VStr (fold_left (fun m t => match text_order t m with Lt => t | _ => m end) ts s)
      | None => wrong
      end
  | VInt _ :: _ | VInt64 _ :: _ | VFloat _ :: _ =>
      match reals l with Some (x :: xs) => VFloat (fold_left (fun m y => if better y m then y else m) xs x) | _ => wrong end
  | _ => wrong
  end.
Definition less (x y : f64) : bool := match SFcompare x y with Some Lt => true | _ => false end.
Definition best_in (better : f64 -> f64 -> bool) (v : val) : val := match v with VArr l => best better l | _ => wrong end.
(** an integer, or a double that is rounded; [f_ceil] and [f_floor] stand for math.Ceil and math.Floor *)
Definition rounded (f : f64 -> f64) (v : val) : val :=
  match v with VInt _ | VInt64 _ => v | VFloat x => VFloat (f x) | _ => wrong end.
Definition begins (p s : bytes) : bool := if list_eq_dec Z.eq_dec (firstn (length p) s) p then true else false.
Definition texts (f : bytes -> bytes -> bool) (bad : val) (a b : val) : val :=
  match a, b with VStr s, VStr p => VBool (f s p) | _, _ => bad end.

(** the length of an array or object, or the number of code points of a text *)
Definition size_of (v : val) : val :=
  match v with
  | VArr l => VInt64 (Z.of_nat (length l))
  | VObj m => VInt64 (Z.of_nat (length m))
  | VStr s => VInt64 (rune_count s)
  | _ => failed
  end.

(** the functions of one argument *)
Definition unary (TX : textoracles) : list (string * (val -> val)) :=
  [("keys"%string, fun v => match v with VObj m => VArr (map (fun kv => VStr (fst kv)) m) | _ => wrong end);
   ("length"%string, fun v => match size_of v with VErr _ => VNil | n => n end);
   ("sum"%string, folded (fun xs => VFloat (total xs)));
   ("prod"%string, folded (fun xs => match xs with [] => VNil | x :: xs => VFloat (fold_left (SFmul 53 1024) xs x) end));
   ("avg"%string, folded (fun xs => VFloat (SFdiv 53 1024 (total xs) (nearest (Z.of_nat (length xs))))));
   ("min"%string, best_in less);
   ("max"%string, best_in (fun x y => less y x));
   ("abs"%string, fun v =>
      match v with
      | VInt z => VInt64 (if z <? 0 then reduced (- z) else z)
      | VInt64 z => if z <? 0 then if reduced (- z) <? 0 then VErr KOverflow else VInt64 (reduced (- z)) else VInt64 z
      | VFloat f => VFloat (match f with S754_zero _ => f | f => SFabs f end)
      | _ => wrong
      end);
   ("ceil"%string, rounded f_ceil);
   ("floor"%string, rounded f_floor);
   ("to_number"%string, fun v =>
      match v with
      | VInt _ | VInt64 _ | VFloat _ => v
      | VStr s => match o_parse_float TX s with Some f => VFloat f | None => VErr (KNumber s) end
      | _ => wrong
      end)].
(** the functions of two arguments *)
Definition binary (W : world) (same : val -> val -> bool) : list (string * (val -> val -> val)) :=
  [("starts_with"%string, texts (fun s p => begins p s) failed);
   ("ends_with"%string, texts (fun s p => begins (rev p) (rev s)) failed);
   ("contains"%string, fun a b =>
      match a with
      | VArr l => VBool (existsb (fun v => same v b) l)
      | a => texts (fun s p => existsb (fun i => begins p (skipn i s)) (seq 0 (S (length s)))) wrong a b
      end);
   ("min"%string, fun a b => best less [a; b]);
   ("max"%string, fun a b => best (fun x y => less y x) [a; b]);
   ("tokenize"%string, fun a b =>
      match a, b with
      | VStr s, VStr p => if o_re_ok (w_text W) p then VArr (map VStr (w_re_split W p s)) else VErr (KRegexp p)
      | _, _ => wrong
      end)].
Definition function_in {A} (table : list (string * A)) (f : bytes) : option A :=
  option_map snd (find (fun p => if list_eq_dec Z.eq_dec f (b_of (fst p)) then true else false) table).

(** a call; min and max take any number of arguments, or one array *)
Definition called (W : world) (same : val -> val -> bool) (f : bytes) (vs : list val) : val :=
  match vs with
  | [x] => match function_in (unary (w_text W)) f with Some g => g x | None => failed end
  | [x; y] => match function_in (binary W same) f with Some g => g x y | None => failed end
  | vs => best (if list_eq_dec Z.eq_dec f (b_of "min") then less else fun x y => less y x) vs
  end.

(** v[n], where v may be an array or object *)
Definition element_of (v : val) (n : Z) : val := first_of (find_arg true v (PInt n)).
(** v[i]: in an array a text, json.Number or double stands for the integer it is the text or
    name of, a Boolean for 0 or 1, and anything else, even a text of no integer, for 0 *)
Definition index_for (name : val -> bytes) (i : val) : Z :=
  match i with
  | VStr _ | VNum _ | VFloat _ => match parse_int (name i) with Some n => n | None => 0 end
  | i => match whole i with Some n => n | None => 0 end
  end.
Definition element_at (name : val -> bytes) (v i : val) : val :=
  match i, v with
  | VErr _, _ => failed
  | VInt n, _ | VInt64 n, _ => element_of v n
  | i, VArr _ => element_of v (index_for name i)
  | i, v => first_of (find_arg true v (PStr (name i)))
  end.

(** ** Expressions *)

(** the value of an expression where $ is [root] and @ is [dot]; [same] decides ==, and [name] is
    the member name a value stands for *)
Fixpoint worth (W : world) (same : val -> val -> bool) (name : val -> bytes) (root dot : val) (e : expr) : val :=
  let TX := w_text W in
  let ev := worth W same name root dot in
  match e with
  | EInt z => VInt64 z
  | EFloat f => VFloat f
  | EStr s => VStr s
  | EBool b => VBool b
  | ENull => VNil
  | EName k => VName k
  | ERegexp p => VRegexp p
  | ECurrent => dot
  | ERoot => root
  | EInner OpDot [x; EName k] =>
      if list_eq_dec Z.eq_dec k (b_of "length") then size_of (ev x) else first_of (find_arg false (ev x) (PName k))
  | EInner OpIndex [x; y] => element_at name (ev x) (ev y)
  | EInner OpNot [x] => VBool (negb (truth TX (ev x)))
  | EInner OpNeg [x] => negative (ev x)
  | EInner OpCall (EName f :: l) => called W same f (map ev l)
  | EInner OpArray l => VArr (map ev l)
  | EInner OpIn [x; y] => if succeeds (ev x) && succeeds (ev y) then VBool (existsb (fun v => same v (ev x)) (elements (ev y))) else failed
  | EInner OpNin [x; y] => if succeeds (ev x) && succeeds (ev y) then VBool (negb (existsb (fun v => same v (ev x)) (elements (ev y)))) else failed
  | EInner OpMatch [x; y] => match ev x, ev y with VStr t, VRegexp p | VStr t, VStr p => VBool (w_re_match W p t) | _, _ => failed end
  | EInner OpAdd [x; y] => arithmetic OpAdd (ev x) (ev y)
  | EInner OpSub [x; y] => arithmetic OpSub (ev x) (ev y)
  | EInner OpMul [x; y] => arithmetic OpMul (ev x) (ev y)
  | EInner OpDiv [x; y] => arithmetic OpDiv (ev x) (ev y)
  | EInner OpMod [x; y] => arithmetic OpMod (ev x) (ev y)
  | EInner OpAnd [x; y] => if truth TX (ev x) then ev y else ev x
  | EInner OpOr [x; y] => if truth TX (ev x) then ev x else if succeeds (ev x) || succeeds (ev y) then ev y else failed
  | EInner OpEQ [x; y] => VBool (same (ev x) (ev y))
  | EInner OpNE [x; y] => VBool (negb (same (ev x) (ev y)))
  | EInner o [x; y] => if succeeds (ev x) && succeeds (ev y) then VBool (relates o (order_of (ev x) (ev y))) else failed
  | _ => failed
  end.

(** the error of an operator on such values, if any *)
Definition own_fault (W : world) (o : op) (vs : list val) : option rerr :=
  match o, vs with
  | OpIn, [x; y] => match x, y with VErr _, _ | _, VErr _ | _, VArr _ => None | _, y => Some (RInRight false y) end
  | OpNin, [x; y] => match x, y with VErr _, _ | _, VErr _ | _, VArr _ => None | _, y => Some (RInRight true y) end
  | OpMatch, [x; y] =>
      match x, y with
      | VErr _, _ | _, VErr _ | VStr _, VRegexp _ => None
      | VStr _, VStr p => if o_re_ok (w_text W) p then None else Some (RBadRegexp p)
      | x, VRegexp _ => Some (RMatchLeft x)
      | x, VStr p => Some (if o_re_ok (w_text W) p then RMatchLeft x else RBadRegexp p)
      | _, y => Some (RMatchRight y)
      end
  | OpCall, VName f :: vs =>
      match function_in function_table f with
      | None => Some (RNoFunction f)
      | Some (Some n) => if Nat.eqb (length vs) n then None else Some (RArgCount f (Z.of_nat n) (Z.of_nat (length vs)))
      | Some None => None
      end
  | _, _ => None
  end.
Fixpoint first_some {A} (l : list (option A)) : option A :=
  match l with [] => None | Some a :: _ => Some a | None :: l => first_some l end.
(** the first error in an expression, if any: operands come first, from left to right *)
Fixpoint fault (W : world) (same : val -> val -> bool) (name : val -> bytes) (root dot : val) (e : expr) : option rerr :=
  match e with
  | EInner o kids =>
      match first_some (map (fault W same name root dot) kids) with
      | Some err => Some err
      | None => own_fault W o (map (worth W same name root dot) kids)
      end
  | _ => None
  end.
Definition unless {A} (f : option rerr) (a : A) : outcome rerr A := match f with Some err => Fail err | None => OK a end.

(** the pieces regexp.Split gives are a slice, whose length is an int *)
Definition splits_ok (W : world) : Prop := forall p s, Z.of_nat (length (w_re_split W p s)) <= max_int64.

(** ** Steps *)

(** a filter tries null if there is nothing else to try *)
Definition or_null (vs dots : list val) : list val := match vs, dots with _ :: _, [] => [VNil] | _, _ => dots end.

(** the argument a script stands for, if any: an integer, or the name of its value *)
Definition script (name : val -> bytes) (v : val) : list pval :=
  match v with
  | VErr _ => []
  | VInt z | VInt64 z => [PInt z]
  | v => [PStr (name v)]
  end.

(** what a step selects, or its error.  In a filter @ is what is tried; in a script after .. it is
    the value selected from; in any other script it is null. *)
Definition fetch_step (W : world) (same : val -> val -> bool) (name : val -> bytes) (root : val) (s : pstep) (vs : list val) : outcome rerr (list val) :=
  let value d e := worth W same name root d e in
  let fault_of e dots := first_some (map (fun d => fault W same name root d e) dots) in
  let keep e dots := unless (fault_of e dots) (filter (fun d => truth (w_text W) (value d e)) dots) in
  match st_op s, st_args s with
  | OpFilter, [PExpr e] => keep e (or_null vs (flat_map offspring vs))
  | OpNestFilter, [PExpr e] => keep e (or_null vs (flat_map containers vs))
  | o, [PExpr e] =>
      let at_ d v := flat_map (find_arg (counts_back o) v) (script name (value d e)) in
      if is_nest o then let dots := or_null vs (flat_map containers vs) in unless (fault_of e dots) (flat_map (fun v => at_ v v) dots)
      else unless (fault_of e [VNil]) (flat_map (at_ VNil) vs)
  | _, _ => match take_step s vs with Some l => OK l | None => Panics end
  end.
Fixpoint fetch_path (W : world) (same : val -> val -> bool) (name : val -> bytes) (root : val) (ss : path) (vs : list val) : outcome rerr (list val) :=
  match ss with
  | [] => OK vs
  | s :: ss => match fetch_step W same name root s vs with OK l => fetch_path W same name root ss l | r => r end
  end.

(** no slice is applied to anything but an array *)
Fixpoint slices_only_arrays (W : world) (same : val -> val -> bool) (name : val -> bytes) (root : val) (ss : path) (vs : list val) : bool :=
  match ss with
  | [] => true
  | s :: ss =>
      negb (existsb (fun v => existsb (misses v) (st_args s)) (if is_nest (st_op s) then flat_map containers vs else vs)) &&
      match fetch_step W same name root s vs with OK l => slices_only_arrays W same name root ss l | _ => true end
  end.

(** no step lists an object of two or more members *)
Definition is_lone (v : val) : bool := match v with VObj (_ :: _ :: _) => false | _ => true end.
Fixpoint in_order (W : world) (same : val -> val -> bool) (name : val -> bytes) (root : val) (ss : path) (vs : list val) : bool :=
  match ss with
  | [] => true
  | s :: ss =>
      forallb is_lone (listed s vs) &&
      match fetch_step W same name root s vs with OK l => in_order W same name root ss l | _ => true end
  end.

(** the same values in some order, or an error both times, or a panic both times *)
Definition agree (r r0 : outcome rerr (list val)) : Prop :=
  match r0 with OK l0 => exists l, r = OK l /\ Permutation l l0 | Fail _ => exists e, r = Fail e | other => r = other end.
