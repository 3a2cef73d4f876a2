(** The texts of steps (C81). *)
From Coq Require Import String.
From Verif Require Import Syntax Listing Describe SpecDescribe Api SpecText SpecRun SpecDoc Machine DescribeProofs Examples.
Local Open Scope Z_scope.
Local Open Scope string_scope.
Local Open Scope list_scope.

(** ** C81 *)
(** Two steps have the same text exactly when they have the same operation, and the same
    arguments but for two things: a name may stand for a string, and of an expression only the
    outermost operator is told. *)
Theorem C81_texts : forall F, quoting F -> forall st st', Step_String F st = Step_String F st' <-> alike st st'.
Proof. exact step_strings. Qed.
Print Assumptions C81_texts.

(** So paths with no expression as an argument of a step, and the same texts, have the same
    results: the texts then tell everything that matters. *)
Theorem C81_constant : forall F TX s s' ss ss' jp jp', quoting F ->
  accepted TX s ss jp -> fits jp -> accepted TX s' ss' jp' -> fits jp' ->
  Forall constant ss -> map (Step_String F) ss = map (Step_String F) ss' ->
  forall W t root r, orders_ok W -> doc root -> (JP_Eval W t jp root r <-> JP_Eval W t jp' root r).
Proof. exact constant_strings. Qed.
Print Assumptions C81_constant.

(** In general they do not: these two filters have the same text and select differently. *)
Theorem C81_refuted : exists s s' ss ss' jp jp' W root, accepted x_text s ss jp /\ accepted x_text s' ss' jp' /\
  doc root /\ (forall F, map (Step_String F) ss = map (Step_String F) ss') /\
  JP_Eval W 0 jp root (OK [VInt64 2]) /\ JP_Eval W 0 jp' root (OK [VInt64 1]).
Proof. exact strings_ambiguous. Qed.
Print Assumptions C81_refuted.

Definition x_quotes : printers := mkPrinters (fun s => 34 :: flat_map (fun c => [92; c]) s ++ [34]) (fun _ => []).

Lemma x_quoting : quoting x_quotes.
Proof.
  split; [intros s; eexists; reflexivity|]. intros s s' x x' E. cbn [pr_quote x_quotes] in E. injection E as E.
  revert s' E. induction s as [|c s IH]; intros [|c' s'] E; cbn in E; try discriminate E.
  - injection E as ->. auto.
  - injection E as -> E. apply IH in E as [-> ->]. auto.
Qed.

Definition x_plain : printers := mkPrinters (fun s => 34 :: s ++ [34]) (fun _ => []).

(** the texts of steps, and two paths with the same texts *)
Example C81_ex :
  let ss := steps_of (b_of "$.a['b'].*[-1,2,'c',d][1:-1][::(@.x)][?(@.e)]..f..[0,1]..['g'].(@.length)..*..[?(1)]") in
  map (Step_String x_plain) ss = map b_of
    [ "OpMember(""a"")"; "OpSelect(""b"")"; "OpWild"; "OpUnion(-1, 2, ""c"", ""d"")";
      "OpSelect(&paths.Slice{Start:1, End:-1, Stride:paths.Val(nil)})";
      "OpSelect(&paths.Slice{Start:paths.Val(nil), End:paths.Val(nil), Stride:OpDot})";
      "OpFilter(OpDot)"; "OpNestMember(""f"")"; "OpNestUnion(0, 1)"; "OpNestSelect(""g"")"; "OpMember(OpDot)";
      "OpNestWild"; "OpNestFilter(OpInt)" ] /\
  quoting x_quotes /\
  accepted x_text (b_of "$['a'][1:2,(0):]") (steps_of (b_of "$['a'][1:2,(0):]")) (jp_of (b_of "$['a'][1:2,(0):]")) /\
  accepted x_text (b_of "$[a][1:2,(7):]") (steps_of (b_of "$[a][1:2,(7):]")) (jp_of (b_of "$[a][1:2,(7):]")) /\
  fits (jp_of (b_of "$['a'][1:2,(0):]")) /\ fits (jp_of (b_of "$[a][1:2,(7):]")) /\
  Forall constant (steps_of (b_of "$['a'][1:2,(0):]")) /\
  steps_of (b_of "$['a'][1:2,(0):]") <> steps_of (b_of "$[a][1:2,(7):]") /\
  map (Step_String x_quotes) (steps_of (b_of "$['a'][1:2,(0):]")) = map (Step_String x_quotes) (steps_of (b_of "$[a][1:2,(7):]")).
Proof.
  intros ss. split; [vm_compute; reflexivity|]. split; [exact x_quoting|].
  split; [apply acceptedb_ok; vm_compute; reflexivity|]. split; [apply acceptedb_ok; vm_compute; reflexivity|].
  split; [vm_compute; reflexivity|]. split; [vm_compute; reflexivity|].
  split.
  { vm_compute steps_of. repeat constructor; intros e K; cbn in K; repeat destruct K as [K|K]; try discriminate K; contradiction. }
  split; [vm_compute; discriminate|]. vm_compute; reflexivity.
Qed.
