(** A canonical printing of paths and script expressions, and the trees that can be
    written down.  A specification: there is no printer in /repo. *)
From Verif Require Import Syntax SpecGrammar SpecSyntax.
Local Open Scope Z_scope.

(** decimal digits of a number that is not negative *)
Definition digits (z : Z) : bytes := uint_bytes (N.to_uint (Z.to_N z)).
Definition print_int (z : Z) : bytes := if z <? 0 then 45 :: digits (- z) else digits z.

Definition hex_char (z : Z) : Z := if z <? 10 then 48 + z else 87 + z.

(** one byte of a string literal quoted by [q] *)
Definition print_byte (q c : Z) : bytes :=
  if (c =? q) || (c =? 92) then [92; c]
  else if c <? 32 then [92; 117; 48; 48; hex_char (c / 16); hex_char (c mod 16)]
  else [c].
Definition print_body (q : Z) (s : bytes) : bytes := flat_map (print_byte q) s.
Definition print_str (q : Z) (s : bytes) : bytes := q :: print_body q s ++ [q].

(** the inside of a regular expression literal *)
Definition print_re (s : bytes) : bytes :=
  flat_map (fun c => if c =? 47 then [92; 47] else [c]) s.

Definition op_text (o : op) : bytes :=
  match o with
  | OpOr => b_of "||" | OpAnd => b_of "&&" | OpEQ => b_of "==" | OpNE => b_of "!="
  | OpLT => b_of "<" | OpLE => b_of "<=" | OpGT => b_of ">" | OpGE => b_of ">="
  | OpMatch => b_of "=~" | OpIn => b_of "in" | OpNin => b_of "nin"
  | OpAdd => b_of "+" | OpSub => b_of "-" | OpMul => b_of "*" | OpDiv => b_of "/"
  | OpMod => b_of "%"
  | _ => []
  end.

Definition sp (t : bytes) : bytes := 32 :: t.
Definition spp (t : string) : bytes := sp (b_of t).

Fixpoint commas (l : list bytes) : bytes :=
  match l with
  | [] => []
  | [x] => x
  | x :: l' => x ++ spp "," ++ commas l'
  end.

Section print.
(** the text of a floating-point number *)
Variable float_text : f64 -> bytes.

Fixpoint print_expr (e : expr) : bytes :=
  match e with
  | EInt z => sp (digits z)
  | EFloat f => sp (float_text f)
  | EStr s => sp (print_str 39 s)
  | EBool b => if b then spp "true" else spp "false"
  | ENull => spp "null"
  | EName s => sp s
  | ECurrent => spp "@"
  | ERoot => spp "$"
  | ERegexp p => spp "/" ++ print_re p ++ [47]
  | EInner o kids =>
    let ks := map print_expr kids in
    spp "(" ++
    match o, ks with
    | OpNeg, [a] => spp "-" ++ a
    | OpNot, [a] => spp "!" ++ a
    | OpIndex, [a; b] => a ++ spp "[" ++ b ++ spp "]"
    | OpDot, [a; b] => a ++ spp "." ++ b
    | OpArray, _ => spp "[" ++ commas ks ++ spp "]"
    | OpCall, f :: args => f ++ spp "(" ++ commas args ++ spp ")"
    | _, [a; b] => a ++ sp (op_text o) ++ b
    | _, _ => []
    end ++ spp ")"
  end.

Definition print_paren (e : expr) : bytes := spp "(" ++ print_expr e ++ spp ")".
Definition print_bound (b : bound) : bytes :=
  match b with BInt z => sp (print_int z) | BExpr e => print_paren e end.
Definition print_obound (b : option bound) : bytes :=
  match b with None => [] | Some b => print_bound b end.
Definition print_slice (s : slice) : bytes :=
  print_obound (sl_start s) ++ spp ":" ++ print_obound (sl_end s) ++
  match sl_stride s with None => [] | Some b => spp ":" ++ print_bound b end.
Definition print_val (v : pval) : bytes :=
  match v with
  | PInt z => sp (print_int z)
  | PStr s => sp (print_str 39 s)
  | PName s => sp s
  | PSlice s => print_slice s
  | PExpr e => print_paren e
  end.
Definition print_vals (l : list pval) : bytes := commas (map print_val l).
Definition print_step (st : pstep) : bytes :=
  match st_op st, st_args st with
  | OpWild, _ => spp "." ++ spp "*"
  | OpMember, [v] => spp "." ++ print_val v
  | OpFilter, [PExpr e] => spp "[" ++ spp "?(" ++ print_expr e ++ spp ")" ++ spp "]"
  | (OpSelect | OpUnion), l => spp "[" ++ print_vals l ++ spp "]"
  | OpNestWild, _ => spp ".." ++ spp "*"
  | OpNestMember, [v] => spp ".." ++ print_val v
  | OpNestFilter, [PExpr e] => spp ".." ++ spp "[" ++ spp "?(" ++ print_expr e ++ spp ")" ++ spp "]"
  | (OpNestSelect | OpNestUnion), l => spp ".." ++ spp "[" ++ print_vals l ++ spp "]"
  | _, _ => []
  end.
Definition print_path (p : path) : bytes := b_of "$" ++ flat_map print_step p.

(** ** What can be written *)
Variable to_float : bytes -> option f64.
Variable re_valid : bytes -> bool.

(** an identifier; in paths it may contain dashes *)
Definition identifier (dash : bool) (s : bytes) : Prop :=
  exists c t, s = c :: t /\ letter c /\ Forall (name_char dash) t.
Definition keyword (s : bytes) : Prop :=
  s = b_of "true" \/ s = b_of "false" \/ s = b_of "null".

(** a floating-point literal *)
Inductive real_text : bytes -> Prop :=
| RealPlain : forall ds fs, ds <> [] -> Forall digit ds -> Forall digit fs ->
    real_text (ds ++ 46 :: fs)
| RealExp : forall ds fs ex, ds <> [] -> Forall digit ds -> Forall digit fs -> exponent ex ->
    real_text (ds ++ 46 :: fs ++ ex).

(** the printed value of a literal is a literal of the same value *)
Definition prints_literals : Prop :=
  forall t f, real_text t -> to_float t = Some f ->
    real_text (float_text f) /\ to_float (float_text f) = Some f.

Inductive writable : expr -> Prop :=
| WrInt : forall z, 0 <= z < 2 ^ 63 -> writable (EInt z)
| WrFloat : forall f, real_text (float_text f) -> to_float (float_text f) = Some f ->
    writable (EFloat f)
| WrStr : forall s, is_bytes s -> writable (EStr s)
| WrBool : forall b, writable (EBool b)
| WrNull : writable ENull
| WrName : forall s, identifier false s -> ~ keyword s -> writable (EName s)
| WrCurrent : writable ECurrent
| WrRoot : writable ERoot
| WrRegexp : forall p, is_bytes p -> re_valid p = true -> (forall u, p <> u ++ [92]) ->
    writable (ERegexp p)
| WrUnary : forall o a, o = OpNeg \/ o = OpNot -> writable a -> writable (EInner o [a])
| WrBinary : forall o a b, is_binary o = true -> writable a -> writable b ->
    writable (EInner o [a; b])
| WrDot : forall a s, writable a -> identifier false s -> writable (EInner OpDot [a; EName s])
| WrArray : forall l, Forall writable l -> writable (EInner OpArray l)
| WrCall : forall f l, identifier false f -> ~ keyword f -> Forall writable l ->
    writable (EInner OpCall (EName f :: l)).

(** integers of paths *)
Definition path_int (z : Z) : Prop := - (2 ^ 63 - 1) < z < 2 ^ 63.

Inductive writable_bound : bound -> Prop :=
| WrBInt : forall z, path_int z -> writable_bound (BInt z)
| WrBExpr : forall e, writable e -> writable_bound (BExpr e).
Definition writable_obound (b : option bound) : Prop :=
  match b with None => True | Some b => writable_bound b end.

Inductive writable_elem : pval -> Prop :=
| WrEInt : forall z, path_int z -> writable_elem (PInt z)
| WrEStr : forall s, is_bytes s -> writable_elem (PStr s)
| WrEName : forall s, identifier true s -> writable_elem (PName s)
| WrESlice : forall s, writable_obound (sl_start s) -> writable_obound (sl_end s) ->
    writable_obound (sl_stride s) -> writable_elem (PSlice s).
Inductive writable_member : pval -> Prop :=
| WrMInt : forall z, path_int z -> writable_member (PInt z)
| WrMName : forall s, identifier true s -> writable_member (PName s)
| WrMExpr : forall e, writable e -> writable_member (PExpr e).

Inductive writable_step : pstep -> Prop :=
| WrWild : writable_step (mkStep OpWild [])
| WrMember : forall v, writable_member v -> writable_step (mkStep OpMember [v])
| WrSelect : forall v, writable_elem v -> writable_step (mkStep OpSelect [v])
| WrSelectExpr : forall e, writable e -> writable_step (mkStep OpSelect [PExpr e])
| WrUnion : forall l, (2 <= length l)%nat -> Forall writable_elem l ->
    writable_step (mkStep OpUnion l)
| WrFilter : forall e, writable e -> writable_step (mkStep OpFilter [PExpr e])
| WrNest : forall st, writable_step st -> st_op st <> st_op (nested st) ->
    writable_step (nested st).
Definition writable_path (p : path) : Prop := Forall writable_step p.
End print.
