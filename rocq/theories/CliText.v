(** What jpath writes to its standard error.  Models the messages of cmd/jpath/jpath.go. *)
From Verif Require Export Messages Cli.
Local Open Scope Z_scope.

Section texts.
Variable F : printers.
Variable G : messages.

(** the position in the errors of readValues (jpath.go:81,85,89) and of readLines
    (jpath.go:103,107,111) *)
Definition place (line : bool) (at_ : Z) : bytes := (if line then [] else b_of "#") ++ sprint_int at_.

(** the texts of the errors of the readers: jpath.go:81,85,89,103,107,111,115 *)
Definition rfault_Error (line : bool) (r : rfault) : bytes :=
  match r with
  | RDecode at_ msg => place line at_ ++ b_of ": decoding JSON: " ++ msg
  | REval at_ e => place line at_ ++ b_of ": evaluation error: " ++ rerr_Error G e
  | REncode at_ msg => place line at_ ++ b_of ": encoding results: " ++ msg
  | RRead msg => b_of "read error: " ++ msg
  end.

(** the texts of the calls of errorf: jpath.go:31,46,51,57 *)
Definition fault_Error (line : bool) (f : fault) : bytes :=
  match f with
  | FUsage => []
  | FPath p e => b_of "path " ++ quote F G p ++ b_of ": " ++ api_Error F G e
  | FOpen file msg => file ++ b_of ": cannot open: " ++ msg
  | FFile file r => file ++ b_of ":" ++ rfault_Error line r
  | FStdin r => rfault_Error line r
  end.

(** the standard error, where [name] is os.Args[0]: jpath.go:22-25, 120-125; [None] for a panic, of
    which the Go runtime writes an account *)
Definition jpath_stderr (name : bytes) (line : bool) (e : ended fault) : option bytes :=
  match e with
  | EDone => Some []
  | EFault FUsage => Some (b_of "usage: jpath [-l] pat [file ...]" ++ [10])
  | EFault f => Some (name ++ b_of ": " ++ fault_Error line f ++ [10])
  | EPanic => None
  end.
End texts.
