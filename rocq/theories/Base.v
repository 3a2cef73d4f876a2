(** Base definitions shared by the model: byte strings, outcomes of Go
    functions, 64-bit integers, the parts of Go's strconv, fmt, strings,
    unicode/utf8 and unicode/utf16 packages that forsyth/jsonpath uses.
    These packages are not part of /repo; the definitions below follow their
    documentation and are part of the trusted reading of the code. *)
From Coq Require Export String Ascii.
From Coq Require Export ZArith Bool Lia List.
From Coq Require Decimal.
Export ListNotations.
Local Open Scope Z_scope.

(** A Go string or []byte: a list of byte values (0..255). E.g. the string of paths/rd.go:16-19
    *)
Definition bytes := list Z.

(** Literal Go strings in examples and in the function table. E.g. mach/fns.go:22-266,
    paths/ops.go:76-125 *)
Definition b_of (s : string) : bytes :=
  map (fun a => Z.of_N (N_of_ascii a)) (list_ascii_of_string s).

(** Every element is a byte value. The elements of the string of paths/rd.go:16-19 *)
Definition is_bytes (s : bytes) : Prop := Forall (fun c => 0 <= c < 256) s.

(** Outcome of a Go function: a normal result, an [error] result, a panic, or exhaustion of the
    model's own fuel (never a Go outcome; every theorem about fuelled functions excludes it).
    E.g. the results of jsonpath.go:46 and mach/run.go:126 *)
Inductive outcome (E A : Type) : Type :=
| OK (a : A)
| Fail (e : E)
| Panics
| OutOfFuel.
Arguments OK {E A} a.
Arguments Fail {E A} e.
Arguments Panics {E A}.
Arguments OutOfFuel {E A}.

(** sequencing with "if err != nil { return nil, err }", as in paths/parseexpr.go:74-77 *)
Definition obind {E A B} (m : outcome E A) (k : A -> outcome E B) : outcome E B :=
  match m with
  | OK a => k a
  | Fail e => Fail e
  | Panics => Panics
  | OutOfFuel => OutOfFuel
  end.

Notation "'let!' x ':=' m 'in' k" := (obind m (fun x => k))
  (at level 200, x pattern, m at level 100, k at level 200, right associativity).

(** ** Equality and order of Go strings ([==] and [<] on string are byte-wise). *)
(** e.g. mach/json.go:151-259, mach/coder.go:188 *)
Fixpoint beqb (a b : bytes) : bool :=
  match a, b with
  | [], [] => true
  | x :: a', y :: b' => (x =? y) && beqb a' b'
  | _, _ => false
  end.

(** mach/fns.go:345-357, mach/run.go:402-429 *)
Fixpoint bltb (a b : bytes) : bool :=
  match a, b with
  | _, [] => false
  | [], _ :: _ => true
  | x :: a', y :: b' => (x <? y) || ((x =? y) && bltb a' b')
  end.

(** "<=" on strings, mach/run.go:402-429 *)
Definition bleb (a b : bytes) : bool := negb (bltb b a).

(** strings.HasPrefix, strings.HasSuffix, strings.Contains: mach/fns.go:213 *)
Fixpoint has_prefix (s p : bytes) : bool :=
  match p, s with
  | [], _ => true
  | _ :: _, [] => false
  | y :: p', x :: s' => (x =? y) && has_prefix s' p'
  end.

(** mach/fns.go:110 *)
Definition has_suffix (s p : bytes) : bool := has_prefix (rev s) (rev p).

(** mach/fns.go:87 *)
Fixpoint contains_sub (s p : bytes) : bool :=
  has_prefix s p ||
  match s with
  | [] => false
  | _ :: s' => contains_sub s' p
  end.

(** ** int64 *)
(** the range of the int64 of mach/json.go:293 and paths/val.go:32 *)
Definition two63 : Z := 9223372036854775808.
Definition two64 : Z := 18446744073709551616.
Definition max_int64 : Z := 9223372036854775807.
Definition min_int64 : Z := -9223372036854775808.

(** Conversion to int64 with two's complement wrap-around. E.g. mach/run.go:617-628,551-613 *)
Definition wrap64 (z : Z) : Z := (z + two63) mod two64 - two63.

(** see paths/val.go:32 *)
Definition in_int64 (z : Z) : Prop := min_int64 <= z <= max_int64.
(** the range check of strconv.ParseInt, paths/lex.go:124 *)
Definition in_int64b (z : Z) : bool := (min_int64 <=? z) && (z <=? max_int64).

(** ** strconv *)
(** strconv.ParseInt, paths/lex.go:124, mach/json.go:123,311 *)
Definition is_dec_digit (c : Z) : bool := (48 <=? c) && (c <=? 57).

(** value of a digit string, most significant first: strconv.ParseInt, paths/lex.go:124,
    mach/json.go:123,311 *)
Fixpoint dec_acc (acc : Z) (s : bytes) : option Z :=
  match s with
  | [] => Some acc
  | c :: s' => if is_dec_digit c then dec_acc (10 * acc + (c - 48)) s' else None
  end.

(** strconv.ParseInt on a text without a sign, paths/lex.go:124 *)
Definition parse_udec (s : bytes) : option Z :=
  match s with [] => None | _ => dec_acc 0 s end.

(** strconv.ParseInt(s, 10, 64); [None] is any error (syntax or range). paths/lex.go:124,
    mach/json.go:123,311 *)
Definition parse_int (s : bytes) : option Z :=
  match s with
  | [] => None
  | c :: s' =>
    let neg := c =? 45 in
    let body := if (c =? 43) || (c =? 45) then s' else s in
    match parse_udec body with
    | None => None
    | Some n =>
      if neg then (if n <=? two63 then Some (- n) else None)
      else (if n <? two63 then Some n else None)
    end
  end.

(** value of one hexadecimal digit: strconv.ParseUint, paths/lex.go:257 *)
Definition hex_digit (c : Z) : Z :=
  if is_dec_digit c then c - 48
  else if (97 <=? c) && (c <=? 102) then c - 87
  else c - 55.

(** strconv.ParseUint(s, 16, 32) for s of at most four hexadecimal digits: paths/lex.go:257 *)
Fixpoint hex_acc (acc : Z) (s : bytes) : Z :=
  match s with
  | [] => acc
  | c :: s' => hex_acc (16 * acc + hex_digit c) s'
  end.

(** fmt.Sprint of an int or int64: decimal: mach/json.go:274-290, paths/val.go:44-46 *)
Fixpoint uint_bytes (u : Decimal.uint) : bytes :=
  match u with
  | Decimal.Nil => []
  | Decimal.D0 u => 48 :: uint_bytes u
  | Decimal.D1 u => 49 :: uint_bytes u
  | Decimal.D2 u => 50 :: uint_bytes u
  | Decimal.D3 u => 51 :: uint_bytes u
  | Decimal.D4 u => 52 :: uint_bytes u
  | Decimal.D5 u => 53 :: uint_bytes u
  | Decimal.D6 u => 54 :: uint_bytes u
  | Decimal.D7 u => 55 :: uint_bytes u
  | Decimal.D8 u => 56 :: uint_bytes u
  | Decimal.D9 u => 57 :: uint_bytes u
  end.

(** fmt.Sprint of an int64, mach/json.go:274-290, paths/val.go:44-46 *)
Definition sprint_int (z : Z) : bytes :=
  if z <? 0 then 45 :: uint_bytes (N.to_uint (Z.to_N (- z)))
  else uint_bytes (N.to_uint (Z.to_N z)).

(** ** unicode/utf8, unicode/utf16 *)

(** strings.Builder WriteRune: UTF-8 encoding; surrogates and values beyond U+10FFFF are encoded
    as U+FFFD. paths/lex.go:178-215 *)
Definition utf8_encode (r : Z) : bytes :=
  if (r <? 0) || (1114111 <? r) || ((55296 <=? r) && (r <=? 57343)) then [239; 191; 189]
  else if r <? 128 then [r]
  else if r <? 2048 then [192 + r / 64; 128 + r mod 64]
  else if r <? 65536 then [224 + r / 4096; 128 + (r / 64) mod 64; 128 + r mod 64]
  else [240 + r / 262144; 128 + (r / 4096) mod 64; 128 + (r / 64) mod 64; 128 + r mod 64].

(** unicode.ReplacementChar, paths/lex.go:189-199 *)
Definition rune_error : Z := 65533.

(** utf16.IsSurrogate: paths/lex.go:197 *)
Definition is_surrogate (r : Z) : bool := (55296 <=? r) && (r <=? 57343).

(** utf16.DecodeRune: paths/lex.go:189 *)
Definition utf16_decode (r1 r2 : Z) : Z :=
  if (55296 <=? r1) && (r1 <? 56320) && (56320 <=? r2) && (r2 <? 57344)
  then (r1 - 55296) * 1024 + (r2 - 56320) + 65536
  else rune_error.

(** the ranges of bytes of utf8.RuneCountInString, mach/run.go:261, mach/fns.go:145 *)
Definition in_rng (lo hi c : Z) : bool := (lo <=? c) && (c <=? hi).

(** Number of bytes taken by the first rune of a non-empty string (1 for an invalid byte): the
    decoding step of utf8.RuneCountInString. Utf8.RuneCountInString, mach/run.go:261,
    mach/fns.go:145 *)
Definition rune_size (s : bytes) : nat :=
  match s with
  | [] => 1%nat
  | c0 :: t =>
    if in_rng 194 223 c0 then
      match t with
      | c1 :: _ => if in_rng 128 191 c1 then 2%nat else 1%nat
      | _ => 1%nat
      end
    else if in_rng 224 239 c0 then
      let lo := if c0 =? 224 then 160 else 128 in
      let hi := if c0 =? 237 then 159 else 191 in
      match t with
      | c1 :: c2 :: _ =>
        if in_rng lo hi c1 && in_rng 128 191 c2 then 3%nat else 1%nat
      | _ => 1%nat
      end
    else if in_rng 240 244 c0 then
      let lo := if c0 =? 240 then 144 else 128 in
      let hi := if c0 =? 244 then 143 else 191 in
      match t with
      | c1 :: c2 :: c3 :: _ =>
        if in_rng lo hi c1 && in_rng 128 191 c2 && in_rng 128 191 c3 then 4%nat else 1%nat
      | _ => 1%nat
      end
    else 1%nat
  end.

(** utf8.RuneCountInString; the fuel [length s] always suffices because every step drops at
    least one byte. mach/run.go:261, mach/fns.go:145 *)
Fixpoint rune_count_aux (fuel : nat) (s : bytes) : Z :=
  match s with
  | [] => 0
  | _ :: _ =>
    match fuel with
    | O => 0
    | S n => 1 + rune_count_aux n (skipn (rune_size s) s)
    end
  end.

(** utf8.RuneCountInString, mach/run.go:261, mach/fns.go:145 *)
Definition rune_count (s : bytes) : Z := rune_count_aux (length s) s.

(** ** Slices and maps *)

(** a[i] with a Go int index; [None] is the out-of-range panic. E.g. mach/program.go:132-135 *)
Definition index_Z {A} (l : list A) (i : Z) : option A :=
  if i <? 0 then None else nth_error l (Z.to_nat i).

(** map lookup by key; the association list of a map has distinct keys: e.g. mach/run.go:775-806
    *)
Fixpoint lookup {A} (k : bytes) (m : list (bytes * A)) : option A :=
  match m with
  | [] => None
  | (k', v) :: m' => if beqb k k' then Some v else lookup k m'
  end.

(** Iterating over a Go map visits the entries in an arbitrary order: the order oracle supplies
    a list of positions. mach/run.go:698-712,808-857, mach/fns.go:126-139 *)
Definition reorder {A} (p : list nat) (l : list A) : list A :=
  flat_map (fun i => match nth_error l i with Some x => [x] | None => [] end) p.
