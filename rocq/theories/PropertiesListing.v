(** The text of compiled programs (C64, C65). *)
From Verif Require Import SpecSyntax SpecGrammar Machine Coder SpecDoc SpecCode SpecRun Parser Api SpecText
  Listing SpecListing ListingProofs Examples.
Local Open Scope Z_scope.

(** strings between quotes as they are, and the one float of the examples *)
Definition x_print : printers := mkPrinters (fun s => b_of """" ++ s ++ b_of """") (fun _ => b_of "1.5").

(** ** C64 *)
(** The text of a compiled path is one word for each constant of the table, in order of first
    use, and then one word for each instruction of the path's listing, all separated by single
    spaces. *)
Theorem C64_listing : forall TX s ss jp, accepted TX s ss jp -> forall F r,
  Program_String F (jp_prog jp) = Some r <->
  exists ws t, listed [] (list_path 0 ss) ws t /\ r = spaced (map (const_text F) t ++ ws).
Proof. exact listing_of. Qed.
Print Assumptions C64_listing.

(** There is always such a text. *)
Theorem C64_total : forall TX s ss jp, accepted TX s ss jp -> forall F, exists r,
  Program_String F (jp_prog jp) = Some r.
Proof. exact listing_total. Qed.
Print Assumptions C64_total.

Example C64_ex : let s := b_of "$..a[?(@.b == 'k' && $.d > 1.5)][0,'k',8388608,8388608,1:(@.a)].*" in
  accepted x_text s (steps_of s) (jp_of s) /\
  Program_String x_print (jp_prog (jp_of s)) = Some (b_of
    "a b ""k"" d 1.5 8388608 [1:OpDot] Nest.4 ID[0] NestMember.1 Rep.1 For.18 Current ID[1] Dot.2 String[2] EQ.2 Root ID[3] Dot.2 Real[4] GT.2 And.2 Filter.1 Rep.5 Int(0) String[2] Int[5] Int[5] Bounds[6] Union.5 Wild").
Proof. split; [apply acceptedb_ok; vm_compute; reflexivity|vm_compute; reflexivity]. Qed.

(** The empty path has the empty text. *)
Example C64_ex_empty : Program_String x_print (jp_prog (jp_of (b_of "$"))) = Some [].
Proof. vm_compute. reflexivity. Qed.

(** ** C65 *)
(** The text of a program that need not come from the compiler exists unless an order holds
    the number of no operator. *)
Theorem C65_panics : forall F p, Program_String F p = None <->
  exists ord, In ord (p_orders p) /\ op_of_num (order_op ord) = None.
Proof. exact listing_panics. Qed.
Print Assumptions C65_panics.

Example C65_ex : Program_String x_print (mkProg [] [mkSmall OpWild 0; 200]) = None /\
  op_of_num (order_op 200) = None /\
  Program_String x_print (mkProg [] [mkSmall OpWild 0; mkOrder OpMember 3]) = Some (b_of "Wild Member").
Proof. vm_compute. auto. Qed.

(** The text does not determine the program, nor what it selects: a bound of a slice is
    listed the same in parentheses, where it is not evaluated. *)
Theorem C65_ambiguous : exists s s' ss ss' jp jp' W root, accepted x_text s ss jp /\ accepted x_text s' ss' jp' /\
  doc root /\ (forall F, Program_String F (jp_prog jp) = Program_String F (jp_prog jp')) /\
  JP_Eval W 0 jp root (OK [VInt64 2]) /\ JP_Eval W 0 jp' root (OK [VInt64 1; VInt64 2]).
Proof. exact listing_ambiguous. Qed.
Print Assumptions C65_ambiguous.
