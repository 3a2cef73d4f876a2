(** What jpath is to write.  A specification: inputs as sequences of documents, and for each
    document what its evaluation alone gives. *)
From Verif Require Import SpecDoc SpecRun Cli.
Local Open Scope Z_scope.

(** [stream L bad off s docs e]: the input [s], which ends with the error [bad], if any, starting at offset [off], holds the documents
    [docs], each with the offset where it was looked for, and then ends or is broken *)
Inductive stream (L : jsonlib) (bad : option bytes) : Z -> bytes -> list (Z * val) -> ended rfault -> Prop :=
| StEnd : forall off s, j_decode L (mkInput s bad) = DEof -> stream L bad off s [] EDone
| StBroken : forall off s msg, j_decode L (mkInput s bad) = DError msg -> stream L bad off s [] (EFault (RDecode off msg))
| StMore : forall off a s v docs e, a <> [] -> j_decode L (mkInput (a ++ s) bad) = DValue v (length a) ->
    stream L bad (off + Z.of_nat (length a)) s docs e -> stream L bad off (a ++ s) ((off, v) :: docs) e.

(** a decoded value takes up some of the input, but no more *)
Definition advances (L : jsonlib) : Prop :=
  forall s bad v n, j_decode L (mkInput s bad) = DValue v n -> (0 < n <= length s)%nat.

(** [text_lines bad s ls e]: [s] has the lines [ls], without their ends (LF or CR LF; the last one
    may be missing), and then ends, with the error [bad], if any, or goes on with a line of 65536
    bytes or more *)
Inductive trimmed : bytes -> bytes -> Prop :=
| TmCR : forall l, trimmed (l ++ [13]) l
| TmOther : forall l, (forall r, l <> r ++ [13]) -> trimmed l l.
Definition at_end (bad : option bytes) (e : ended rfault) : Prop :=
  (bad = None /\ e = EDone) \/ exists msg, bad = Some msg /\ e = EFault (RRead msg).
Inductive text_lines (bad : option bytes) : bytes -> list bytes -> ended rfault -> Prop :=
| TlEnd : forall e, at_end bad e -> text_lines bad [] [] e
| TlLine : forall l l' s ls e, ~ In 10 l -> Z.of_nat (length l) < 65536 -> trimmed l l' -> text_lines bad s ls e ->
    text_lines bad (l ++ 10 :: s) (l' :: ls) e
| TlLast : forall l l' e, ~ In 10 l -> Z.of_nat (length l) < 65536 -> l <> [] -> trimmed l l' -> at_end bad e ->
    text_lines bad l [l'] e
| TlLong : forall l s, ~ In 10 l -> Z.of_nat (length l) = 65536 ->
    text_lines bad (l ++ s) [] (EFault (RRead (b_of "bufio.Scanner: token too long"))).

(** the documents of some lines, numbered from [n], up to a line that is not a document *)
Inductive line_docs (L : jsonlib) (after : ended rfault) : Z -> list bytes -> list (Z * val) -> ended rfault -> Prop :=
| LdEnd : forall n, line_docs L after n [] [] after
| LdBroken : forall n l ls msg, j_unmarshal L l = Lost msg -> line_docs L after n (l :: ls) [] (EFault (RDecode n msg))
| LdMore : forall n l ls v docs e, j_unmarshal L l = Got v -> line_docs L after (n + 1) ls docs e ->
    line_docs L after n (l :: ls) ((n, v) :: docs) e.

(** [responds L W T jp line k docs after out e]: the documents, the first one evaluated as the
    k-th, are answered by [out]; [after] happens if all are *)
Inductive responds (L : jsonlib) (W : world) (T : nat -> nat) (jp : JSONPath) (line : bool) (after : ended rfault)
    : nat -> list (Z * val) -> bytes -> ended rfault -> Prop :=
| RsAll : forall k, responds L W T jp line after k [] [] after
| RsAnswer : forall k p v docs l b out e, JP_Eval W (T k) jp v (OK l) -> j_encode L line (Some l) = Got b ->
    responds L W T jp line after (S k) docs out e -> responds L W T jp line after k ((p, v) :: docs) (b ++ out) e
| RsError : forall k p v docs err, JP_Eval W (T k) jp v (Fail err) ->
    responds L W T jp line after k ((p, v) :: docs) [] (EFault (REval p err))
| RsPanic : forall k p v docs, JP_Eval W (T k) jp v Panics ->
    responds L W T jp line after k ((p, v) :: docs) [] EPanic
| RsEncode : forall k p v docs l msg, JP_Eval W (T k) jp v (OK l) -> j_encode L line (Some l) = Lost msg ->
    responds L W T jp line after k ((p, v) :: docs) [] (EFault (REncode p msg)).

(** [documents L line i docs after]: the documents of a file *)
Definition documents (L : jsonlib) (line : bool) (i : input) (docs : list (Z * val)) (after : ended rfault) : Prop :=
  if line then exists ls e, text_lines (in_bad i) (in_text i) ls e /\ line_docs L e 1 ls docs after
  else stream L (in_bad i) 0 (in_text i) docs after.

(** [writes L W T jp line files out e]: the files' documents are answered, file by file, up to
    the first problem, for which its file is blamed, if it has a name *)
Inductive writes (L : jsonlib) (W : world) (T : nat -> nat) (jp : JSONPath) (line : bool)
    : nat -> list (option bytes * tried input) -> bytes -> ended fault -> Prop :=
| WrNone : forall k, writes L W T jp line k [] [] EDone
| WrOpen : forall k f msg files, writes L W T jp line k ((Some f, Lost msg) :: files) [] (EFault (FOpen f msg))
| WrFile : forall k f s files docs out1 out2 e, documents L line s docs EDone ->
    responds L W T jp line EDone k docs out1 EDone -> writes L W T jp line (k + length docs) files out2 e ->
    writes L W T jp line k ((f, Got s) :: files) (out1 ++ out2) e
| WrPanic : forall k f s files docs after out, documents L line s docs after ->
    responds L W T jp line after k docs out EPanic -> writes L W T jp line k ((f, Got s) :: files) out EPanic
| WrStop : forall k f s files docs after out r, documents L line s docs after ->
    responds L W T jp line after k docs out (EFault r) ->
    writes L W T jp line k ((Some f, Got s) :: files) out (EFault (FFile f r))
| WrStdin : forall k s files docs after out r, documents L line s docs after ->
    responds L W T jp line after k docs out (EFault r) ->
    writes L W T jp line k ((None, Got s) :: files) out (EFault (FStdin r)).

(** the inputs: the files named, or the standard input *)
Definition inputs (open : bytes -> tried input) (stdin : input) (files : list bytes) : list (option bytes * tried input) :=
  match files with [] => [(None, Got stdin)] | _ => map (fun f => (Some f, open f)) files end.

(** what can go wrong with one document *)
Definition stops (L : jsonlib) (W : world) (t : nat) (jp : JSONPath) (line : bool) (p : Z) (v : val) (e : ended rfault) : Prop :=
  (exists err, JP_Eval W t jp v (Fail err) /\ e = EFault (REval p err)) \/
  (JP_Eval W t jp v Panics /\ e = EPanic) \/
  (exists l msg, JP_Eval W t jp v (OK l) /\ j_encode L line (Some l) = Lost msg /\ e = EFault (REncode p msg)).

(** [served L W T jp line k files]: every file opens and is a sequence of documents to its end, and
    every document evaluates to results that can be encoded *)
Inductive served (L : jsonlib) (W : world) (T : nat -> nat) (jp : JSONPath) (line : bool)
    : nat -> list (option bytes * tried input) -> Prop :=
| SvNone : forall k, served L W T jp line k []
| SvFile : forall k f s files docs, documents L line s docs EDone ->
    (forall i p v, nth_error docs i = Some (p, v) ->
       exists l b, JP_Eval W (T (k + i)%nat) jp v (OK l) /\ j_encode L line (Some l) = Got b) ->
    served L W T jp line (k + length docs) files -> served L W T jp line k ((f, Got s) :: files).

(** some document of the files has an evaluation that panics *)
Definition panicked (L : jsonlib) (W : world) (T : nat -> nat) (jp : JSONPath) (line : bool)
    (files : list (option bytes * tried input)) : Prop :=
  exists f s docs after p v k, In (f, Got s) files /\ documents L line s docs after /\ In (p, v) docs /\
    JP_Eval W k jp v Panics.

(** decoded values are documents; documents can be encoded; an encoding without indentation is
    one line *)
Definition decodes_docs (L : jsonlib) : Prop :=
  (forall s v n, j_decode L s = DValue v n -> doc v) /\ (forall s v, j_unmarshal L s = Got v -> doc v).
Definition encodes_docs (L : jsonlib) : Prop := forall line l, Forall doc l -> exists b, j_encode L line (Some l) = Got b.
Definition one_line (L : jsonlib) : Prop := forall l b, j_encode L true (Some l) = Got b -> exists r, b = r ++ [10] /\ ~ In 10 r.
