(** The command jpath.  Models cmd/jpath/jpath.go.

    Parameters: encoding/json (decoding a stream, decoding a line, encoding results), the files,
    and the texts of their errors.  The flags are parsed in Flags.
    Failing writes and the buffering of the output are in Writes (the output is flushed before every exit: by errorf,
    jpath.go:121, and by the deferred call of jpath.go:27, which also runs on a panic).  The
    text of messages is in CliText. *)
From Verif Require Export Api.
Local Open Scope Z_scope.

(** a result, or the text of an error: the errors of encoding/json, os.Open and reads, which
    jpath.go:46,81,89,103,111,115 report *)
Inductive tried (A : Type) : Type :=
| Got (a : A)
| Lost (msg : bytes).
Arguments Got {A} a.
Arguments Lost {A} msg.

(** a file, or the standard input: what can be read, and the error of the read after that, if it
    is not io.EOF: jpath.go:71-82, 97-116 *)
Record input : Type := mkInput {
  in_text : bytes;
  in_bad : option bytes
}.

(** what dec.Decode does on the rest of its input: a value and the number of bytes it took, end
    of input, or an error: jpath.go:70-93 *)
Inductive decoded : Type :=
| DValue (v : val) (n : nat)
| DEof
| DError (msg : bytes).

(** encoding/json as used at jpath.go:70-118 *)
Record jsonlib : Type := mkLib {
  j_decode : input -> decoded;               (* json.Decoder.Decode *)
  j_unmarshal : bytes -> tried val;          (* json.Unmarshal *)
  j_encode : bool -> gslice -> tried bytes   (* json.Encoder.Encode, on one line or indented *)
}.

(** the errors of readValues and readLines; positions are offsets or line numbers:
    jpath.go:69-118 *)
Inductive rfault : Type :=
| RDecode (at_ : Z) (msg : bytes)     (* jpath.go:81, 103 *)
| REval (at_ : Z) (e : rerr)          (* jpath.go:85, 107 *)
| REncode (at_ : Z) (msg : bytes)     (* jpath.go:89, 111 *)
| RRead (msg : bytes).                (* jpath.go:114-116 *)

(** the reasons for stopping: jpath.go:18-60 *)
Inductive fault : Type :=
| FUsage                              (* jpath.go:22-25 *)
| FPath (p : bytes) (e : api_err)     (* jpath.go:30-32 *)
| FOpen (file : bytes) (msg : bytes)  (* jpath.go:45-47 *)
| FFile (file : bytes) (r : rfault)   (* jpath.go:50-52 *)
| FStdin (r : rfault).                (* jpath.go:56-58 *)

(** how main, or a reader, ends: jpath.go:18-118 *)
Inductive ended (F : Type) : Type :=
| EDone
| EFault (f : F)
| EPanic.
Arguments EDone {F}.
Arguments EFault {F} f.
Arguments EPanic {F}.

(** the error of a reader as one of main, which names the file: jpath.go:48-58 *)
Definition blame (file : option bytes) (e : ended rfault) : ended fault :=
  match e with
  | EDone => EDone
  | EFault r => EFault (match file with Some f => FFile f r | None => FStdin r end)
  | EPanic => EPanic
  end.

(** bufio.MaxScanTokenSize: jpath.go:96-118 uses a bufio.Scanner without a Buffer of its own *)
Definition max_line : Z := 65536.

(** the result of input.Scan(), jpath.go:96-118 *)
Inductive scanned : Type :=
| SLine (line rest : bytes)
| SEof
| STooLong.

(** the first line of [s], if it ends within [n] bytes, and what follows: bufio.ScanLines,
    jpath.go:96-118 *)
Fixpoint split_line (n : Z) (s : bytes) : option (bytes * bytes) :=
  match s with
  | [] => None
  | c :: s' =>
    if n <=? 0 then None
    else if c =? 10 then Some ([], s')
    else match split_line (n - 1) s' with Some (l, r) => Some (c :: l, r) | None => None end
  end.

(** bufio's dropCR: bufio.ScanLines, jpath.go:96-118 *)
Fixpoint drop_cr (l : bytes) : bytes :=
  match l with
  | [] => []
  | [c] => if c =? 13 then [] else [c]
  | c :: l' => c :: drop_cr l'
  end.

(** input.Scan() with bufio.ScanLines: the buffer holds at most [max_line] bytes, and a line
    must have been found when it is full: jpath.go:96-118 *)
Definition scan (s : bytes) : scanned :=
  match split_line max_line s with
  | Some (l, r) => SLine (drop_cr l) r
  | None =>
    if max_line <=? Z.of_nat (length s) then STooLong
    else match s with [] => SEof | _ => SLine (drop_cr s) [] end
  end.

(** bufio.ErrTooLong: jpath.go:114-116 *)
Definition too_long : bytes := b_of "bufio.Scanner: token too long".

(** input.Err() when there are no more lines: jpath.go:114-117 *)
Definition scan_end (bad : option bytes) : ended rfault :=
  match bad with Some msg => EFault (RRead msg) | None => EDone end.

(** [T k] numbers the first range over a map in the k-th evaluation *)
Section jpath.
Variable L : jsonlib.
Variable W : world.
Variable T : nat -> nat.
Variable jp : JSONPath.
Variable fuel : nat.

(** jpath.go:83-90, 105-112: evaluation and encoding of one document; [None] is out of fuel *)
Definition answer (line : bool) (k : nat) (at_ : Z) (v : val) : option (bytes * ended rfault) :=
  match Run_go fuel W (T k) (jp_prog jp) v with
  | OK (out, None) =>
    match j_encode L line out with
    | Got b => Some (b, EDone)
    | Lost msg => Some ([], EFault (REncode at_ msg))
    end
  | OK (_, Some e) => Some ([], EFault (REval at_ e))
  | Fail e => match e with end
  | Panics => Some ([], EPanic)
  | OutOfFuel => None
  end.

(** jpath.go:69-93.  The results: what is written, the number of the next evaluation, and why
    the function ended *)
Fixpoint readValues (n : nat) (k : nat) (off : Z) (s : bytes) (bad : option bytes) : option (bytes * nat * ended rfault) :=
  match n with
  | O => None
  | S n' =>
    match j_decode L (mkInput s bad) with
    | DEof => Some ([], k, EDone)
    | DError msg => Some ([], k, EFault (RDecode off msg))
    | DValue v c =>
      match answer false k off v with
      | Some (b, EDone) =>
        match readValues n' (S k) (off + Z.of_nat c) (skipn c s) bad with
        | Some (r, k', e) => Some (b ++ r, k', e)
        | None => None
        end
      | Some (b, e) => Some (b, S k, e)
      | None => None
      end
    end
  end.

(** jpath.go:95-118 *)
Fixpoint readLines (n : nat) (k : nat) (lno : Z) (s : bytes) (bad : option bytes) : option (bytes * nat * ended rfault) :=
  match n with
  | O => None
  | S n' =>
    match scan s with
    | SEof => Some ([], k, scan_end bad)
    | STooLong => Some ([], k, EFault (RRead too_long))
    | SLine l rest =>
      match j_unmarshal L l with
      | Lost msg => Some ([], k, EFault (RDecode lno msg))
      | Got v =>
        match answer true k lno v with
        | Some (b, EDone) =>
          match readLines n' (S k) (lno + 1) rest bad with
          | Some (r, k', e) => Some (b ++ r, k', e)
          | None => None
          end
        | Some (b, e) => Some (b, S k, e)
        | None => None
        end
      end
    end
  end.

(** the function chosen at jpath.go:33-41, on one file *)
Definition reader (line : bool) (n k : nat) (i : input) : option (bytes * nat * ended rfault) :=
  if line then readLines n k 1 (in_text i) (in_bad i) else readValues n k 0 (in_text i) (in_bad i).

(** jpath.go:42-53 *)
Fixpoint readFiles (line : bool) (n k : nat) (open : bytes -> tried input) (files : list bytes) : option (bytes * ended fault) :=
  match files with
  | [] => Some ([], EDone)
  | f :: files' =>
    match open f with
    | Lost msg => Some ([], EFault (FOpen f msg))
    | Got i =>
      match reader line n k i with
      | Some (b, k', EDone) =>
        match readFiles line n k' open files' with
        | Some (r, e) => Some (b ++ r, e)
        | None => None
        end
      | Some (b, _, e) => Some (b, blame (Some f) e)
      | None => None
      end
    end
  end.
End jpath.

(** jpath.go:18-60: the flag -l, the arguments, the files and the standard input; the results
    are the standard output and the reason for the exit *)
Definition jpath (L : jsonlib) (W : world) (T : nat -> nat) (fuel n : nat) (line : bool) (args : list bytes)
    (open : bytes -> tried input) (stdin : input) : option (bytes * ended fault) :=
  match args with
  | [] => Some ([], EFault FUsage)
  | p :: files =>
    match JP_Compile (w_text W) p with
    | OK jp =>
      match files with
      | [] =>
        match reader L W T jp fuel line n 0 stdin with
        | Some (b, _, e) => Some (b, blame None e)
        | None => None
        end
      | _ => readFiles L W T jp fuel line n 0 open files
      end
    | Fail e => Some ([], EFault (FPath p e))
    | Panics => Some ([], EPanic)
    | OutOfFuel => None
    end
  end.

(** the exit status: os.Exit(2) for usage (jpath.go:24), os.Exit(1) by errorf (jpath.go:124), the Go
    runtime's 2 for a panic *)
Definition exit_status (e : ended fault) : Z :=
  match e with EDone => 0 | EFault FUsage => 2 | EFault _ => 1 | EPanic => 2 end.
