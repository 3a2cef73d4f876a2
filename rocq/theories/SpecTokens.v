(** The division of a text into tokens, without regard to the grammar of phrases, and
    JSON's rule for escapes.  A specification: nothing here refers to the lexer or
    parser. *)
From Verif Require Import Syntax SpecGrammar.
Local Open Scope Z_scope.

(** Where the next token stands: among the tokens of a path, or inside a parenthesised
    expression, at some depth of brackets, where an operand or an operator is due. *)
Inductive tmode : Type := InPath | InExpr (depth : nat) (operand : bool).

Definition is_punct (p : bytes) (l : list string) : bool := existsb (fun x => beqb p (b_of x)) l.

(** the place after a token *)
Definition path_next (t : gtok) : option tmode :=
  match t with
  | GEnd => None
  | GPunct p => if is_punct p ["("; "?("]%string then Some (InExpr 0 true) else Some InPath
  | _ => Some InPath
  end.
Definition expr_next (d : nat) (operand : bool) (t : gtok) : option tmode :=
  match t with
  | GEnd => None
  | GStr _ | GInt _ | GReal _ => Some (InExpr d false)
  | GName n => Some (InExpr d (negb operand && is_punct n ["in"; "nin"]%string))
  | GPunct p =>
    if is_punct p ["("; "["]%string then Some (InExpr (S d) true)
    else if is_punct p [")"; "]"]%string then
      match d with
      | O => if is_punct p [")"]%string then Some InPath else None
      | S d' => Some (InExpr d' false)
      end
    else if is_punct p ["@"; "$"]%string then Some (InExpr d false)
    else if is_punct p ["/"]%string && operand then None
    else Some (InExpr d true)
  end.

Section tokens.
Variable to_float : bytes -> option f64.
(** whether a literal at the end of the text may be left unclosed after an escaped quote *)
Variable lax : bool.

(** one token; where an operand is due, "/" opens a regular expression *)
Inductive tstep : tmode -> bytes -> tmode -> bytes -> Prop :=
| TSPath : forall s t r m, ptok lax s t r -> path_next t = Some m -> tstep InPath s m r
| TSExpr : forall d b s t r m, etok to_float lax s t r -> expr_next d b t = Some m ->
    tstep (InExpr d b) s m r
| TSRegexp : forall d s t v r, punct to_float lax s "/" (t ++ 47 :: r) -> re_body t v ->
    tstep (InExpr d true) s (InExpr d false) r.

(** any number of tokens *)
Inductive toks : tmode -> bytes -> tmode -> bytes -> Prop :=
| TkNil : forall m s, toks m s m s
| TkCons : forall m s m1 s1 m2 r, tstep m s m1 s1 -> toks m1 s1 m2 r -> toks m s m2 r.
End tokens.

(** a string literal starts here but is not closed *)
Definition unclosed (s : bytes) : Prop :=
  exists w q t, s = w ++ q :: t /\ Forall space w /\ (q = 34 \/ q = 39) /\
    forall u r v, t = u ++ q :: r -> ~ str_body q u v.

(** an integer literal starts here whose value is too large *)
Definition big_int (m : tmode) (s : bytes) : Prop :=
  exists w ds r, Forall space w /\ ds <> [] /\ Forall digit ds /\
    match m with
    | InPath => (s = w ++ ds ++ r /\ not_next digit r /\ 2 ^ 63 <= dec_val ds) \/
                (exists w', Forall space w' /\ s = w ++ 45 :: w' ++ ds ++ r /\ not_next digit r /\
                            2 ^ 63 - 1 <= dec_val ds)
    | InExpr _ _ => s = w ++ ds ++ r /\ not_next (fun c => digit c \/ c = 46) r /\ 2 ^ 63 <= dec_val ds
    end.

(** ** Escapes *)

(** the UTF-8 form of a code point *)
Inductive utf8 : Z -> bytes -> Prop :=
| Utf8_1 : forall r, 0 <= r < 128 -> utf8 r [r]
| Utf8_2 : forall a b, 0 <= b < 64 -> 128 <= a * 64 + b < 2048 ->
    utf8 (a * 64 + b) [192 + a; 128 + b]
| Utf8_3 : forall a b c, 0 <= b < 64 -> 0 <= c < 64 -> 2048 <= (a * 64 + b) * 64 + c < 65536 ->
    utf8 ((a * 64 + b) * 64 + c) [224 + a; 128 + b; 128 + c]
| Utf8_4 : forall a b c d, 0 <= b < 64 -> 0 <= c < 64 -> 0 <= d < 64 ->
    65536 <= ((a * 64 + b) * 64 + c) * 64 + d < 1114112 ->
    utf8 (((a * 64 + b) * 64 + c) * 64 + d) [240 + a; 128 + b; 128 + c; 128 + d].

(** In a run of adjacent escapes, reading pairs from the left: a surrogate that is not
    half of a pair stands directly before a pair. *)
Definition low_next (rs : list Z) : bool :=
  match rs with [] => false | l :: _ => low_surrogate l end.
Fixpoint lone_before_pair (pending : option Z) (rs : list Z) : bool :=
  match rs with
  | [] => false
  | r :: rs' =>
    let then_ := if surrogate r then Some r else None in
    match pending with
    | None => lone_before_pair then_ rs'
    | Some h =>
      if high_surrogate h && low_surrogate r then lone_before_pair None rs'
      else high_surrogate r && low_next rs' || lone_before_pair then_ rs'
    end
  end.

(** the inside of a literal and its value by JSON's rule, where the runs of adjacent
    escapes all satisfy [P] *)
Inductive json_body (P : list Z -> Prop) (q : Z) : bytes -> bytes -> Prop :=
| JEnd : json_body P q [] []
| JChar : forall c t v, c <> q -> c <> 92 -> 32 <= c -> json_body P q t v ->
    json_body P q (c :: t) (c :: v)
| JEsc : forall u rs t v, esc_run q u rs -> P rs -> not_next (eq 92) t -> json_body P q t v ->
    json_body P q (u ++ t) (json_run None rs ++ v).
