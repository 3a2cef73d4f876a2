(** The interface and the command jpath: properties C51 and C52. *)
From Verif Require Import SpecSelect SpecText SpecSyntax SpecGrammar SpecText SpecDoc SpecRun Cli SpecCli Examples CliProofs.
Local Open Scope Z_scope.

(** ** C51 *)
(** MustCompile panics exactly when Compile returns an error, otherwise gives what Compile
    gives, and does one of the two. *)
Theorem C51_must : forall TX s, is_bytes s -> literal_floats (o_parse_float TX) ->
  (JP_MustCompile TX s = Panics <-> exists e, JP_Compile TX s = Fail e) /\
  (forall jp, JP_MustCompile TX s = OK jp <-> JP_Compile TX s = OK jp) /\
  ((exists jp, JP_MustCompile TX s = OK jp) \/ JP_MustCompile TX s = Panics).
Proof. exact must_compile. Qed.
Print Assumptions C51_must.

(** String gives the text compiled. *)
Theorem C51_text : forall TX s jp, JP_Compile TX s = OK jp -> JP_String jp = s.
Proof. exact source_text. Qed.
Print Assumptions C51_text.

Example C51_ex : is_bytes (b_of "$.a[?(@.b)]") /\ literal_floats (o_parse_float x_text) /\
  (exists jp, JP_MustCompile x_text (b_of "$.a[?(@.b)]") = OK jp /\ JP_String jp = b_of "$.a[?(@.b)]") /\
  JP_MustCompile x_text (b_of "$.a[?(") = Panics.
Proof.
  split; [apply bytesb_ok; reflexivity|]. split; [apply x_floats|]. split; [|vm_compute; reflexivity].
  eexists. split; [vm_compute; reflexivity|reflexivity].
Qed.

(** ** C52 *)
(** What jpath writes and why it ends, for every list of files: file by file, document by
    document, each evaluated on its own, up to the first problem.  Everything that the
    specification allows happens, and nothing else. *)
Theorem C52_exact : forall L W T line p files open stdin jp, advances L -> JP_Compile (w_text W) p = OK jp -> forall out e,
  (exists fuel n, jpath L W T fuel n line (p :: files) open stdin = Some (out, e)) <->
  writes L W T jp line 0 (inputs open stdin files) out e.
Proof. exact jpath_exact. Qed.
Print Assumptions C52_exact.

(** jpath on its standard input: outputs in the order of the documents, the i-th the encoding of
    what the evaluation of the i-th document gives; either all are answered, or the first one
    without an output has an evaluation (or encoding) that fails, and is the reason for the
    end. *)
Theorem C52_values : forall L W T p open stdin jp fuel n out e docs after, advances L -> JP_Compile (w_text W) p = OK jp ->
  jpath L W T fuel n false [p] open stdin = Some (out, e) -> stream L (in_bad stdin) 0 (in_text stdin) docs after ->
  exists outs, out = concat outs /\
    (forall i b, nth_error outs i = Some b -> exists p v l, nth_error docs i = Some (p, v) /\
       JP_Eval W (T i) jp v (OK l) /\ j_encode L false (Some l) = Got b) /\
    ((length outs = length docs /\ e = blame None after) \/
     exists p v e', nth_error docs (length outs) = Some (p, v) /\ stops L W (T (length outs)) jp false p v e' /\ e = blame None e').
Proof. exact jpath_values. Qed.
Print Assumptions C52_values.

(** jpath -l: the i-th output line answers the i-th input line; either every line is answered,
    or the first one that is not is no document or has an evaluation that fails. *)
Theorem C52_lines : forall L W T p open stdin jp fuel n out e ls q, advances L -> one_line L -> JP_Compile (w_text W) p = OK jp ->
  jpath L W T fuel n true [p] open stdin = Some (out, e) -> text_lines (in_bad stdin) (in_text stdin) ls q ->
  exists outs, out = concat (map (fun o => o ++ [10]) outs) /\ Forall (fun o => ~ In 10 o) outs /\
    (forall i o, nth_error outs i = Some o -> exists l v r, nth_error ls i = Some l /\ j_unmarshal L l = Got v /\
       JP_Eval W (T i) jp v (OK r) /\ j_encode L true (Some r) = Got (o ++ [10])) /\
    ((length outs = length ls /\ e = blame None q) \/
     exists l, nth_error ls (length outs) = Some l /\
       ((exists msg, j_unmarshal L l = Lost msg /\ e = EFault (FStdin (RDecode (1 + Z.of_nat (length outs)) msg))) \/
        exists v e', j_unmarshal L l = Got v /\ stops L W (T (length outs)) jp true (1 + Z.of_nat (length outs)) v e' /\ e = blame None e')).
Proof. exact jpath_lines. Qed.
Print Assumptions C52_lines.

(** Every input has lines, and only one way of being cut. *)
Theorem C52_cut : forall bad s, exists ls q, text_lines bad s ls q /\ forall ls' q', text_lines bad s ls' q' -> ls' = ls /\ q' = q.
Proof. exact lines_unique. Qed.
Print Assumptions C52_cut.

(** jpath ends, on every input. *)
Theorem C52_ends : forall ss L W T line p files open stdin jp, advances L -> decodes_docs L -> orders_ok W ->
  accepted (w_text W) p ss jp -> fits jp -> exists fuel n out e, jpath L W T fuel n line (p :: files) open stdin = Some (out, e).
Proof. exact jpath_total. Qed.
Print Assumptions C52_ends.

(** Results are always encodable: they are parts of the document, or null. *)
Theorem C52_encodes : forall ss L W T line p files open stdin jp fuel n out e, advances L -> decodes_docs L -> encodes_docs L -> orders_ok W ->
  accepted (w_text W) p ss jp -> jpath L W T fuel n line (p :: files) open stdin = Some (out, e) ->
  forall f at_ msg, e <> EFault (FFile f (REncode at_ msg)) /\ e <> EFault (FStdin (REncode at_ msg)).
Proof. exact jpath_encodes. Qed.
Print Assumptions C52_encodes.

(** With -l a line need not be answered even if all lines are documents and evaluate well: a
    line of 65536 bytes or more stops jpath. *)
Theorem C52_long_refuted : exists L W T p ss jp ls, advances L /\ one_line L /\ decodes_docs L /\ encodes_docs L /\ orders_ok W /\
  accepted (w_text W) p ss jp /\ fits jp /\ Forall (fun l => ~ In 10 l) ls /\
  (forall l, In l ls -> exists v r, j_unmarshal L l = Got v /\ forall t, JP_Eval W t jp v (OK r)) /\ length ls = 2%nat /\
  exists fuel n, jpath L W T fuel n true [p] (fun _ => Lost []) (mkInput (concat (map (fun l => l ++ [10]) ls)) None) = Some ([], EFault (FStdin (RRead (b_of "bufio.Scanner: token too long")))).
Proof. exact long_refuted. Qed.
Print Assumptions C52_long_refuted.

(** two documents, then one that is none, with $ and x_lib *)
Example C52_ex : advances x_lib /\ one_line x_lib /\ decodes_docs x_lib /\ encodes_docs x_lib /\
  JP_Compile (w_text x_world) (b_of "$") = OK (jp_of (b_of "$")) /\
  text_lines None (b_of "1" ++ [10] ++ b_of " 2" ++ [13; 10] ++ b_of "x") [b_of "1"; b_of " 2"; b_of "x"] EDone /\
  jpath x_lib x_world (fun k => k) 20 5 true [b_of "$"] (fun _ => Lost []) (mkInput (b_of "1" ++ [10] ++ b_of " 2" ++ [13; 10] ++ b_of "x") None)
  = Some (b_of "[1]" ++ [10] ++ b_of "[1]" ++ [10], EFault (FStdin (RDecode 3 (b_of "invalid character")))) /\
  stream x_lib None 0 (b_of "1 2 x") [(0, VFloat (f_of_Z 1)); (1, VFloat (f_of_Z 2))] (EFault (RDecode 3 (b_of "invalid character"))) /\
  jpath x_lib x_world (fun k => k) 20 5 false [b_of "$"; b_of "f"; b_of "g"] (fun f => if beqb f (b_of "f") then Got (mkInput (b_of "1 2") None) else Lost (b_of "no such file")) (mkInput [] None)
  = Some (b_of "[1]" ++ [10] ++ b_of "[1]" ++ [10], EFault (FOpen (b_of "g") (b_of "no such file"))).
Proof.
  split; [apply x_lib_advances|]. split; [apply x_lib_line|]. split; [apply x_lib_docs|]. split; [apply x_lib_encodes|].
  split; [vm_compute; reflexivity|]. split.
  { assert (T1 : forall l, ~ In 13 l -> trimmed l l) by (intros l Hl; apply TmOther; intros r ->; apply Hl, in_or_app; right; left; reflexivity).
    apply (TlLine None (b_of "1") (b_of "1")); [cbn; intuition congruence|cbn; lia|apply T1; cbn; intuition congruence|].
    apply (TlLine None (b_of " 2" ++ [13]) (b_of " 2")); [cbn; intuition congruence|cbn; lia|constructor|].
    apply TlLast; [cbn; intuition congruence|cbn; lia|discriminate|apply T1; cbn; intuition congruence|left; auto]. }
  split; [vm_compute; reflexivity|]. split; [|vm_compute; reflexivity].
  apply (StMore x_lib None 0 (b_of "1") (b_of " 2 x")); [discriminate|reflexivity|].
  apply (StMore x_lib None 1 (b_of " 2") (b_of " x")); [discriminate|reflexivity|]. apply StBroken. reflexivity.
Qed.

(** ** C66 *)

(** With a path that is accepted, jpath's exit status is 0 exactly if every input opens, is a
    sequence of documents to its end, and every document evaluates to results that are encoded;
    otherwise it is 1, or else 2 with a panic. *)
Theorem C66_status : forall L W T line p files open stdin jp fuel n out e, advances L -> JP_Compile (w_text W) p = OK jp ->
  jpath L W T fuel n line (p :: files) open stdin = Some (out, e) ->
  (exit_status e = 0 <-> served L W T jp line 0 (inputs open stdin files)) /\
  (exit_status e = 0 \/ exit_status e = 1 \/ exit_status e = 2 /\ panicked L W T jp line (inputs open stdin files)).
Proof. exact jpath_status. Qed.
Print Assumptions C66_status.

(** With documents there is no panic, and the status is 0 or 1, unless a slice's stride leads out of
    the int64 range (C14). *)
Theorem C66_no_panic : forall ss L W T line p files open stdin jp fuel n out e, advances L -> decodes_docs L -> orders_ok W ->
  accepted (w_text W) p ss jp -> fits jp -> jpath L W T fuel n line (p :: files) open stdin = Some (out, e) ->
  (forall f s docs after at_ v, In (f, Got s) (inputs open stdin files) -> documents L line s docs after -> In (at_, v) docs ->
     forall a b c l, slice_in ss a b c -> within (VArr l) v -> ~ overflowing (Z.of_nat (length l)) a b c) ->
  exit_status e = 0 \/ exit_status e = 1.
Proof. exact jpath_status_doc. Qed.
Print Assumptions C66_no_panic.

(** Without a path the status is 2, with one that is refused it is 1; nothing is read or written. *)
Theorem C66_refused : forall L W T fuel n line open stdin,
  (exists e, jpath L W T fuel n line [] open stdin = Some ([], e) /\ exit_status e = 2) /\
  forall p files err, JP_Compile (w_text W) p = Fail err ->
    exists e, jpath L W T fuel n line (p :: files) open stdin = Some ([], e) /\ exit_status e = 1.
Proof. exact jpath_refuses. Qed.
Print Assumptions C66_refused.

(** the runs of C52_ex fail; without the last document, and without the last file, they succeed;
    a path that is refused *)
Example C66_ex : advances x_lib /\ decodes_docs x_lib /\ orders_ok x_world /\
  JP_Compile (w_text x_world) (b_of "$") = OK (jp_of (b_of "$")) /\
  (exists out e, jpath x_lib x_world (fun k => k) 20 5 true [b_of "$"] (fun _ => Lost []) (mkInput (b_of "1" ++ [10] ++ b_of " 2" ++ [13; 10] ++ b_of "x") None) = Some (out, e) /\
    exit_status e = 1) /\
  (exists out e, jpath x_lib x_world (fun k => k) 20 5 true [b_of "$"] (fun _ => Lost []) (mkInput (b_of "1" ++ [10] ++ b_of " 2") None) = Some (out, e) /\
    exit_status e = 0) /\
  (exists out e, jpath x_lib x_world (fun k => k) 20 5 false [b_of "$"; b_of "f"] (fun f => if beqb f (b_of "f") then Got (mkInput (b_of "1 2") None) else Lost (b_of "no such file")) (mkInput [] None)
    = Some (out, e) /\ exit_status e = 0) /\
  (exists err, JP_Compile (w_text x_world) (b_of "$.[") = Fail err).
Proof.
  split; [apply x_lib_advances|]. split; [apply x_lib_docs|]. split; [apply x_world_ok|]. split; [vm_compute; reflexivity|].
  repeat split; repeat eexists; try (vm_compute; reflexivity).
Qed.
