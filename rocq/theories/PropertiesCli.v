(** What jpath writes to its standard error: properties C71, C76. *)
From Verif Require Import SpecText SpecDoc SpecRun Cli SpecCli CliText SpecCliText SpecMessages NamedProofs Examples CliProofs CliTextProofs Tests.
Local Open Scope Z_scope.

(** ** C71 *)
(** Nothing is written to the standard error exactly if the exit status is 0. *)
Theorem C71_silent : forall F G name line e, jpath_stderr F G name line e = Some [] <-> exit_status e = 0.
Proof. exact stderr_silent. Qed.
Print Assumptions C71_silent.

(** With -l, on its standard input, jpath's message has the number of the first line without an
    answer: one more than the lines written.  Or else it says that reading failed, or met a line
    that is too long. *)
Theorem C71_line : forall F G name L W T p open stdin jp fuel n out f, advances L -> one_line L -> JP_Compile (w_text W) p = OK jp ->
  jpath L W T fuel n true [p] open stdin = Some (out, EFault f) -> exists reason,
  jpath_stderr F G name true (EFault f) = Some (name ++ b_of ": " ++ sprint_int (newlines out + 1) ++ b_of ": " ++ reason ++ [10]) \/
  (jpath_stderr F G name true (EFault f) = Some (name ++ b_of ": read error: " ++ reason ++ [10]) /\
   (in_bad stdin = Some reason \/ reason = b_of "bufio.Scanner: token too long")).
Proof. exact stderr_line. Qed.
Print Assumptions C71_line.

(** On files, the message names the first file in which something goes wrong: those before it are
    answered to their ends. *)
Theorem C71_file : forall F G name L W T line p files open stdin jp fuel n out f, advances L -> JP_Compile (w_text W) p = OK jp -> files <> [] ->
  jpath L W T fuel n line (p :: files) open stdin = Some (out, EFault f) -> exists pre file post reason,
  files = pre ++ file :: post /\
  served L W T jp line 0 (map (fun f => (Some f, open f)) pre) /\ ~ served L W T jp line 0 (map (fun f => (Some f, open f)) (pre ++ [file])) /\
  jpath_stderr F G name line (EFault f) = Some (name ++ b_of ": " ++ file ++ b_of ":" ++ reason ++ [10]).
Proof. exact stderr_file. Qed.
Print Assumptions C71_file.

(** The same message from two runs of one command has the same reason: the same file, position and
    kind of error, with the same text.  No file name may have a colon. *)
Theorem C71_tells : forall F G name line p files TX jp, Forall (fun f => ~ In 58 f) files -> JP_Compile TX p = OK jp ->
  forall L W T open stdin fuel n out e L' W' T' open' stdin' fuel' n' out' e', advances L -> advances L' -> w_text W = TX -> w_text W' = TX ->
  jpath L W T fuel n line (p :: files) open stdin = Some (out, e) ->
  jpath L' W' T' fuel' n' line (p :: files) open' stdin' = Some (out', e') ->
  e <> EPanic -> jpath_stderr F G name line e = jpath_stderr F G name line e' -> same_end G e e'.
Proof. exact stderr_tells. Qed.
Print Assumptions C71_tells.

(** With a colon in a file name one message can blame either of two files. *)
Theorem C71_colon_refuted : exists F G name line p files L W T open open' stdin fuel n f f' m m', advances L /\ f <> f' /\
  jpath L W T fuel n line (p :: files) open stdin = Some ([], EFault (FOpen f m)) /\
  jpath L W T fuel n line (p :: files) open' stdin = Some ([], EFault (FOpen f' m')) /\
  jpath_stderr F G name line (EFault (FOpen f m)) = jpath_stderr F G name line (EFault (FOpen f' m')).
Proof. exact colon_refuted. Qed.
Print Assumptions C71_colon_refuted.

(** jpath -l '$' with a line that is no document, with a file that cannot be read to its end, and
    jpath '$' with the second file broken at offset 3 *)
Example C71_ex : let F := mkPrinters (fun s => s) (fun _ => []) in let err := jpath_stderr F tt_messages (b_of "jpath") in
  let empty := mkInput [] None in
  advances x_lib /\ one_line x_lib /\ JP_Compile (w_text x_world) (b_of "$") = OK (jp_of (b_of "$")) /\
  Forall (fun f => ~ In 58 f) [b_of "f"; b_of "g"] /\
  (exists f, jpath x_lib x_world (fun k => k) 20 5 true [b_of "$"] (fun _ => Lost []) (mkInput (b_of "1" ++ [10] ++ b_of "x") None) = Some (b_of "[1]" ++ [10], EFault f) /\
     err true (EFault f) = Some (b_of "jpath: 2: decoding JSON: invalid character" ++ [10])) /\
  (exists f, jpath x_lib x_world (fun k => k) 20 5 true [b_of "$"; b_of "d"] (fun _ => Got (mkInput [] (Some (b_of "read d: is a directory")))) empty = Some ([], EFault f) /\
     err true (EFault f) = Some (b_of "jpath: d:read error: read d: is a directory" ++ [10])) /\
  (exists f, jpath x_lib x_world (fun k => k) 20 5 false [b_of "$"; b_of "f"; b_of "g"]
       (fun f => Got (mkInput (if beqb f (b_of "f") then b_of "1" else b_of "2 3x") None)) empty = Some (b_of "[1]" ++ [10] ++ b_of "[1]" ++ [10] ++ b_of "[1]" ++ [10], EFault f) /\
     err false (EFault f) = Some (b_of "jpath: g:#3: decoding JSON: invalid character" ++ [10])).
Proof.
  cbv zeta. split; [apply x_lib_advances|]. split; [apply x_lib_line|]. split; [vm_compute; reflexivity|].
  split; [repeat constructor; intros [H|[]]; discriminate|]. repeat split; eexists; (split; [vm_compute; reflexivity|]); vm_compute; reflexivity.
Qed.

(** ** C76 *)
(** The panic of MustCompile names the path, unambiguously. *)
Theorem C76_panic : forall F G TX TX' s s' m, quotes F G -> MustCompile_panic F G TX s = Some m -> MustCompile_panic F G TX' s' = Some m -> s = s'.
Proof. exact panic_names. Qed.
Print Assumptions C76_panic.

(** So does jpath's message about a path that does not compile. *)
Theorem C76_jpath : forall F G name L W T fuel n line p files open stdin out e er,
  forall L' W' T' fuel' n' line' p' files' open' stdin' out' e' er', quotes F G ->
  JP_Compile (w_text W) p = Fail er -> JP_Compile (w_text W') p' = Fail er' ->
  jpath L W T fuel n line (p :: files) open stdin = Some (out, e) -> jpath L' W' T' fuel' n' line' (p' :: files') open' stdin' = Some (out', e') ->
  jpath_stderr F G name line e = jpath_stderr F G name line' e' -> p = p'.
Proof. exact jpath_names. Qed.
Print Assumptions C76_jpath.

(** a quoting that escapes every byte *)
Definition x_printers : printers := mkPrinters (fun s => 34 :: flat_map (fun c => [92; c]) s ++ [34]) (fun _ => []).
Definition x_messages : messages := mkMessages (fun p => p) (fun _ => []) (fun _ => []) (fun s => negb (existsb (fun c => c =? 96) s)).
Lemma x_quotes : quotes x_printers x_messages.
Proof.
  split; [|split].
  - intros s H K. cbn in H. apply negb_true_iff in H. rewrite <- not_true_iff_false in H. apply H. apply existsb_exists. exists 96. split; [exact K|reflexivity].
  - intro s. eexists. reflexivity.
  - intros s s' x x' E. cbn [pr_quote x_printers app] in E. injection E as E. revert s' E. induction s as [|c s IH]; intros [|c' s'] E; try discriminate E; [reflexivity|].
    cbn [flat_map app] in E. injection E as -> E. f_equal. apply IH. exact E.
Qed.
Example C76_ex : let err := jpath_stderr x_printers x_messages (b_of "jpath") in let empty := mkInput [] None in
  let run args := jpath x_lib x_world (fun k => k) 20 5 true args (fun _ => Lost []) empty in
  quotes x_printers x_messages /\
  MustCompile_panic x_printers x_messages x_text (b_of "$[") = Some (b_of "jsonpath: Compile(`$[`): unexpected end of expression at offset 1") /\
  (exists e, run [b_of "$["; b_of "f"] = Some ([], e) /\ exit_status e = 1 /\
     err true e = Some (b_of "jpath: path `$[`: unexpected end of expression at offset 1" ++ [10])) /\
  (exists e, run [b_of "$`"] = Some ([], e) /\ exists m, err true e = Some (b_of "jpath: path ""\$\`"": " ++ m)) /\
  (exists e, run [] = Some ([], e) /\ exit_status e = 2 /\ err true e = Some (b_of "usage: jpath [-l] pat [file ...]" ++ [10])).
Proof.
  cbv zeta. split; [exact x_quotes|]. split; [vm_compute; reflexivity|]. split; [eexists; split; [vm_compute; reflexivity|split; vm_compute; reflexivity]|].
  split; [eexists; split; [vm_compute; reflexivity|]; eexists; vm_compute; reflexivity|].
  eexists; split; [vm_compute; reflexivity|split; vm_compute; reflexivity].
Qed.
