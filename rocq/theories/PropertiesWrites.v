(** What jpath's standard output gets when writes can fail: properties C77, C78. *)
From Verif Require Import SpecText SpecDoc SpecRun Cli SpecCli Writes SpecWrites WritesProofs Examples CliProofs.
Local Open Scope Z_scope.

(** ** C77 *)
(** What the standard output receives is the beginning of what it receives when no write fails;
    and jpath ends as it does then, or reports the failure of its last write. *)
Theorem C77_prefix : forall L W T Out fuel n line args open stdin log e out e0,
  jpath_to L W T Out fuel n line args open stdin = Some (log, e) -> jpath L W T fuel n line args open stdin = Some (out, e0) ->
  (exists rest, out = received log ++ rest) /\ (e = e0 \/ write_fault log e).
Proof. exact writes_prefix. Qed.
Print Assumptions C77_prefix.

(** When no write fails it receives the output of C51 and C52. *)
Theorem C77_all : forall L W T Out fuel n line args open stdin log e,
  jpath_to L W T Out fuel n line args open stdin = Some (log, e) -> Forall succeeded log -> jpath L W T fuel n line args open stdin = Some (received log, e).
Proof. exact writes_quiet. Qed.
Print Assumptions C77_all.

(** Failing writes do not keep jpath from ending. *)
Theorem C77_ends : forall L W T Out fuel n line args open stdin out e0,
  jpath L W T fuel n line args open stdin = Some (out, e0) -> exists log e, jpath_to L W T Out fuel n line args open stdin = Some (log, e).
Proof. exact writes_total. Qed.
Print Assumptions C77_ends.

(** No write is empty; all but the last succeed, and have at least 4096 bytes. *)
Theorem C77_blocks : forall L W T Out fuel n line args open stdin log e,
  jpath_to L W T Out fuel n line args open stdin = Some (log, e) -> proper Out log.
Proof. exact writes_proper. Qed.
Print Assumptions C77_blocks.

(** results of 3000 bytes *)
Definition x_big : jsonlib := mkLib (j_decode x_lib) (j_unmarshal x_lib) (fun _ _ => Got (repeat 65 (Z.to_nat 2999) ++ [10])).
(** the second write fails after 10 bytes *)
Definition x_full : os_write := fun k b => match k with O => None | _ => Some (10%nat, b_of "no space left on device") end.

(** The second result fills the buffer, and the third fills it again: that write fails. *)
Example C77_ex : let one := repeat 65 (Z.to_nat 2999) ++ [10] in
  let run Out s := jpath_to x_big x_world (fun k => k) Out 20 9 true [b_of "$"] (fun _ => Lost []) (mkInput s None) in
  (exists log, run x_full (b_of "1" ++ [10] ++ b_of "2" ++ [10] ++ b_of "3" ++ [10] ++ b_of "4") = Some (log, EFault (FStdin (REncode 3 (b_of "no space left on device")))) /\
     map (fun w => Z.of_nat (length (fst w))) log = [4096; 4096] /\ write_fault log (EFault (FStdin (REncode 3 (b_of "no space left on device")))) /\
     Z.of_nat (length (received log)) = 4106) /\
  (exists log, run (fun _ _ => None) (b_of "1" ++ [10] ++ b_of "2" ++ [10] ++ b_of "3") = Some (log, EDone) /\ Forall succeeded log /\
     map (fun w => Z.of_nat (length (fst w))) log = [4096; 4096; 808] /\ received log = one ++ one ++ one).
Proof.
  cbv zeta. split.
  - eexists. split; [vm_compute; reflexivity|]. split; [vm_compute; reflexivity|]. split; [|vm_compute; reflexivity].
    eexists [_], _, _, _, _. split; [reflexivity|]. left. reflexivity.
  - eexists. split; [vm_compute; reflexivity|]. split; [repeat constructor|]. split; vm_compute; reflexivity.
Qed.

(** ** C78 *)
(** An exit status of 0 means that all of the output was written but for at most the last 4096
    bytes. *)
Theorem C78_partial : forall L W T Out fuel n line args open stdin log e,
  jpath_to L W T Out fuel n line args open stdin = Some (log, e) -> exit_status e = 0 ->
  exists rest, jpath L W T fuel n line args open stdin = Some (received log ++ rest, e) /\ Z.of_nat (length rest) <= 4096.
Proof. exact writes_done. Qed.
Print Assumptions C78_partial.

(** The failure of a write other than the final flush is reported, with exit status 1. *)
Theorem C78_noticed : forall L W T Out fuel n line args open stdin log e out e0,
  jpath_to L W T Out fuel n line args open stdin = Some (log, e) -> jpath L W T fuel n line args open stdin = Some (out, e0) ->
  out <> attempted log -> write_fault log e /\ exit_status e = 1.
Proof. exact writes_noticed. Qed.
Print Assumptions C78_noticed.

(** Of an output of at most 4096 bytes there is one write, whose failure changes nothing in how
    jpath ends. *)
Theorem C78_silent : forall L W T Out fuel n line args open stdin out e,
  jpath L W T fuel n line args open stdin = Some (out, e) -> Z.of_nat (length out) <= 4096 ->
  jpath_to L W T Out fuel n line args open stdin = Some (match out with [] => [] | _ => [(out, Out 0%nat out)] end, e).
Proof. exact writes_silent. Qed.
Print Assumptions C78_silent.

(** So an exit status of 0 does not mean that all, or any, of the output was written. *)
Theorem C78_refuted : exists L W T Out fuel n line args open stdin log e out,
  jpath_to L W T Out fuel n line args open stdin = Some (log, e) /\ exit_status e = 0 /\
  jpath L W T fuel n line args open stdin = Some (out, e) /\ out <> [] /\ received log = [].
Proof. exact writes_lost. Qed.
Print Assumptions C78_refuted.

(** One document, on a full device; and three, with the final flush failing, or an earlier write. *)
Example C78_ex : let full : os_write := fun _ _ => Some (0%nat, b_of "no space left on device") in
  let run L Out s := jpath_to L x_world (fun k => k) Out 20 9 true [b_of "$"] (fun _ => Lost []) (mkInput s None) in
  let three := b_of "1" ++ [10] ++ b_of "2" ++ [10] ++ b_of "3" in
  run x_lib full (b_of "1") = Some ([(b_of "[1]" ++ [10], Some (0%nat, b_of "no space left on device"))], EDone) /\
  jpath x_lib x_world (fun k => k) 20 9 true [b_of "$"] (fun _ => Lost []) (mkInput (b_of "1") None) = Some (b_of "[1]" ++ [10], EDone) /\
  (exists log, run x_big (fun k b => match k with 2%nat => Some (5%nat, []) | _ => None end) three = Some (log, EDone) /\
     Z.of_nat (length (received log)) = 8197 /\ Z.of_nat (length (attempted log)) = 9000) /\
  (exists log e, run x_big full three = Some (log, e) /\ exit_status e = 1 /\ Z.of_nat (length (attempted log)) = 4096).
Proof.
  cbv zeta. split; [vm_compute; reflexivity|]. split; [vm_compute; reflexivity|]. split.
  - eexists. split; [vm_compute; reflexivity|]. split; vm_compute; reflexivity.
  - eexists _, _. split; [vm_compute; reflexivity|]. split; vm_compute; reflexivity.
Qed.
