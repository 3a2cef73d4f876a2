(** What jpath's standard output gets when writes can fail.  Models the bufio.Writer and the
    json.Encoder of cmd/jpath/jpath.go, over what Cli models.

    Parameter: what each write to the standard output does. *)
From Verif Require Export Cli.
Local Open Scope Z_scope.

(** os.Stdout.Write, given the number of earlier writes and the bytes to write: [None] when all of
    them are written, or else the number of bytes written and the text of the error.  os.File
    returns an error with every short count.  jpath.go:26 *)
Definition os_write : Type := nat -> bytes -> option (nat * bytes).

(** bufio.Writer: the writes so far and what became of them, b.buf[:b.n], and b.err.  jpath.go:16,26 *)
Record writer : Type := mkWriter {
  wr_log : list (bytes * option (nat * bytes));
  wr_buf : bytes;
  wr_err : option bytes
}.

(** what the standard output received: jpath.go:26 *)
Definition received (log : list (bytes * option (nat * bytes))) : bytes :=
  flat_map (fun w => match snd w with None => fst w | Some (n, _) => firstn n (fst w) end) log.

(** bufio's defaultBufSize: jpath.go:26 *)
Definition bufsize : Z := 4096.

(** bufio.NewWriter: jpath.go:26 *)
Definition new_writer : writer := mkWriter [] [] None.

(** one write of [b], all of what is left to write unless the write fails, in bufio.Writer's Write
    and Flush; after an error the buffer is not used again: jpath.go:27,34,121 *)
Definition emit (Out : os_write) (w : writer) (b : bytes) : writer :=
  let r := Out (length (wr_log w)) b in
  mkWriter (wr_log w ++ [(b, r)]) [] (match r with None => None | Some (_, msg) => Some msg end).

(** bufio.Writer.Flush, whose result is not used: jpath.go:27,121 *)
Definition flush (Out : os_write) (w : writer) : writer :=
  match wr_err w with
  | Some _ => w
  | None => match wr_buf w with [] => w | b => emit Out w b end
  end.

(** bufio.Writer.Write, as called by json.Encoder.Encode: jpath.go:34.  Its loop runs at most
    twice: when the buffer has been filled and flushed it is empty, and what is left is either
    written directly, or fits. *)
Definition write (Out : os_write) (w : writer) (p : bytes) : writer :=
  match wr_err w with
  | Some _ => w
  | None =>
    let avail := bufsize - Z.of_nat (length (wr_buf w)) in
    if Z.of_nat (length p) <=? avail then mkWriter (wr_log w) (wr_buf w ++ p) None
    else match wr_buf w with
    | [] => emit Out w p
    | b =>
      let n := Z.to_nat avail in
      let w1 := emit Out w (b ++ firstn n p) in
      match wr_err w1 with
      | Some _ => w1
      | None => if Z.of_nat (length (skipn n p)) <=? bufsize then mkWriter (wr_log w1) (skipn n p) None else emit Out w1 (skipn n p)
      end
    end
  end.

Section writes.
Variable L : jsonlib.
Variable W : world.
Variable T : nat -> nat.
Variable Out : os_write.
Variable jp : JSONPath.
Variable fuel : nat.

(** jpath.go:83-90, 105-112; Encode returns the error of the write of what it encoded *)
Definition answer_to (line : bool) (k : nat) (at_ : Z) (v : val) (w : writer) : option (writer * ended rfault) :=
  match Run_go fuel W (T k) (jp_prog jp) v with
  | OK (out, None) =>
    match j_encode L line out with
    | Got b =>
      let w' := write Out w b in
      match wr_err w' with
      | None => Some (w', EDone)
      | Some msg => Some (w', EFault (REncode at_ msg))
      end
    | Lost msg => Some (w, EFault (REncode at_ msg))
    end
  | OK (_, Some e) => Some (w, EFault (REval at_ e))
  | Fail e => match e with end
  | Panics => Some (w, EPanic)
  | OutOfFuel => None
  end.

(** jpath.go:69-93 *)
Fixpoint readValues_to (n : nat) (k : nat) (off : Z) (s : bytes) (bad : option bytes) (w : writer) : option (writer * nat * ended rfault) :=
  match n with
  | O => None
  | S n' =>
    match j_decode L (mkInput s bad) with
    | DEof => Some (w, k, EDone)
    | DError msg => Some (w, k, EFault (RDecode off msg))
    | DValue v c =>
      match answer_to false k off v w with
      | Some (w', EDone) => readValues_to n' (S k) (off + Z.of_nat c) (skipn c s) bad w'
      | Some (w', e) => Some (w', S k, e)
      | None => None
      end
    end
  end.

(** jpath.go:95-118 *)
Fixpoint readLines_to (n : nat) (k : nat) (lno : Z) (s : bytes) (bad : option bytes) (w : writer) : option (writer * nat * ended rfault) :=
  match n with
  | O => None
  | S n' =>
    match scan s with
    | SEof => Some (w, k, scan_end bad)
    | STooLong => Some (w, k, EFault (RRead too_long))
    | SLine l rest =>
      match j_unmarshal L l with
      | Lost msg => Some (w, k, EFault (RDecode lno msg))
      | Got v =>
        match answer_to true k lno v w with
        | Some (w', EDone) => readLines_to n' (S k) (lno + 1) rest bad w'
        | Some (w', e) => Some (w', S k, e)
        | None => None
        end
      end
    end
  end.

(** jpath.go:33-41 *)
Definition reader_to (line : bool) (n k : nat) (i : input) (w : writer) : option (writer * nat * ended rfault) :=
  if line then readLines_to n k 1 (in_text i) (in_bad i) w else readValues_to n k 0 (in_text i) (in_bad i) w.

(** jpath.go:42-53 *)
Fixpoint readFiles_to (line : bool) (n k : nat) (open : bytes -> tried input) (files : list bytes) (w : writer) : option (writer * ended fault) :=
  match files with
  | [] => Some (w, EDone)
  | f :: files' =>
    match open f with
    | Lost msg => Some (w, EFault (FOpen f msg))
    | Got i =>
      match reader_to line n k i w with
      | Some (w', k', EDone) => readFiles_to line n k' open files' w'
      | Some (w', _, e) => Some (w', blame (Some f) e)
      | None => None
      end
    end
  end.
End writes.

(** jpath.go:18-60: the writes to the standard output, and the reason for the exit.  The buffer is
    flushed before it, by errorf (jpath.go:121) or by the deferred call (jpath.go:27). *)
Definition jpath_to (L : jsonlib) (W : world) (T : nat -> nat) (Out : os_write) (fuel n : nat) (line : bool) (args : list bytes)
    (open : bytes -> tried input) (stdin : input) : option (list (bytes * option (nat * bytes)) * ended fault) :=
  let finish (r : option (writer * ended fault)) := match r with Some (w, e) => Some (wr_log (flush Out w), e) | None => None end in
  match args with
  | [] => Some ([], EFault FUsage)
  | p :: files =>
    match JP_Compile (w_text W) p with
    | OK jp =>
      match files with
      | [] =>
        match reader_to L W T Out jp fuel line n 0 stdin new_writer with
        | Some (w, _, e) => finish (Some (w, blame None e))
        | None => None
        end
      | _ => finish (readFiles_to L W T Out jp fuel line n 0 open files new_writer)
      end
    | Fail e => finish (Some (new_writer, EFault (FPath p e)))
    | Panics => finish (Some (new_writer, EPanic))
    | OutOfFuel => None
    end
  end.
