(** Properties of single steps and of their composition (C20-C25, C27, C53).  [runs W root t
    cands ss r]: the compiled form of the steps [ss], with $ bound to [root], started on the
    selection [cands], ends with [r]; [t] and the number in [r] count ranges over maps.
    [orders_ok W] says that a range over a map visits each entry once. *)
From Verif Require Import Syntax SpecSyntax Machine Coder SpecDoc SpecSelect SpecRun SpecCode StepExact SelectFinal
  SpecGrammar Parser Api SpecText SelectText Examples.
Local Open Scope Z_scope.

(** the candidates of the examples: [1, true], {"a": null, "7": 2}, "x" and {"b": [3]} *)
Definition x_cands : list val :=
  [VArr [VInt64 1; VBool true]; VObj [(b_of "a", VNil); (b_of "7", VInt64 2)]; VStr (b_of "x");
   VObj [(b_of "b", VArr [VInt64 3])]].
Example x_cands_ok : Forall doc x_cands.
Proof. repeat constructor; apply docb_doc; reflexivity. Qed.

(** a run of some steps on [x_cands], by computation *)
Ltac run_it := eexists; split; [vm_compute; reflexivity|]; split; [vm_compute; reflexivity|];
  split; [discriminate|]; exists 100%nat; vm_compute; reflexivity.

(** ** C20 *)
(** .k, [k] and ['k'] select the member [k] of each candidate that is an object and has it. *)
Theorem C20_member : forall W root t cands k s r, orders_ok W -> doc root -> Forall doc cands ->
  In s [mkStep OpMember [PName k]; mkStep OpSelect [PName k]; mkStep OpSelect [PStr k]] ->
  (runs W root t cands [s] r <-> exists l, r = OK (l, t) /\ gathers (picks_name k) cands l).
Proof. exact member_exact. Qed.
Print Assumptions C20_member.

Example C20_ex : runs x_world x_doc 0 x_cands [mkStep OpMember [PName (b_of "a")]] (OK ([VNil], 0%nat)) /\
  gathers (picks_name (b_of "a")) x_cands [VNil].
Proof.
  split; [run_it|]. exists [[]; [VNil]; []; []]. split; [|reflexivity].
  repeat constructor; try (apply PnOther; reflexivity).
  cbn. intros [H|[]]. discriminate.
Qed.

(** ** C21 *)
(** [n] selects by index, counting from the end if [n] is negative, and .n without; both
    select the member with the decimal name from objects. *)
Theorem C21_index : forall W root t cands n r, orders_ok W -> doc root -> Forall doc cands -> in_int64 n ->
  (runs W root t cands [mkStep OpSelect [PInt n]] r <->
     exists l, r = OK (l, t) /\ gathers (picks (SIndex true n)) cands l) /\
  (runs W root t cands [mkStep OpMember [PInt n]] r <->
     exists l, r = OK (l, t) /\ gathers (picks (SIndex false n)) cands l).
Proof. exact index_exact. Qed.
Print Assumptions C21_index.

Example C21_ex :
  runs x_world x_doc 0 x_cands [mkStep OpSelect [PInt (-1)]] (OK ([VBool true], 0%nat)) /\
  runs x_world x_doc 0 x_cands [mkStep OpMember [PInt (-1)]] (OK ([], 0%nat)) /\
  runs x_world x_doc 0 x_cands [mkStep OpMember [PInt 7]] (OK ([VInt64 2], 0%nat)) /\
  picks (SIndex true (-1)) (VArr [VInt64 1; VBool true]) [VBool true] /\
  picks (SIndex false (-1)) (VArr [VInt64 1; VBool true]) [].
Proof.
  split; [run_it|]. split; [run_it|]. split; [run_it|]. split.
  - apply PkElem with 1; [right; split; [reflexivity|cbn; lia]|]. split; [lia|reflexivity].
  - apply PkRange. right. split; [lia|discriminate].
Qed.

(** ** C22 *)
(** * selects the elements of arrays in order and the member values of objects in some
    order; there is an outcome, and every outcome is of this kind. *)
Theorem C22_wild : forall W root t cands, orders_ok W -> doc root -> Forall doc cands ->
  (exists r, runs W root t cands [mkStep OpWild []] r) /\
  forall r, runs W root t cands [mkStep OpWild []] r ->
    exists l t', r = OK (l, t') /\ gathers children_in_order cands l.
Proof. exact wild_exact. Qed.
Print Assumptions C22_wild.

Example C22_ex : runs x_world_rev x_doc 0 x_cands [mkStep OpWild []]
  (OK ([VInt64 1; VBool true; VInt64 2; VNil; VArr [VInt64 3]], 2%nat)).
Proof. run_it. Qed.

(** ** C23 *)
(** A slice of arrays selects the elements at its positions, and panics when the stride
    cannot be added to the last of them.  Missing: arrays on which it panics. *)
Theorem C23_slice_partial : forall W root t cands sl a b c r, orders_ok W -> doc root -> Forall doc cands ->
  wf_slice sl -> bound_is (sl_start sl) a -> bound_is (sl_end sl) b -> bound_is (sl_stride sl) c ->
  Forall (fun v => IsArray v = true) cands ->
  (runs W root t cands [mkStep OpSelect [PSlice sl]] r <->
    (exists l, r = OK (l, t) /\ gathers (picks (SSlice a b c)) cands l /\
       forall l', In (VArr l') cands -> ~ overflowing (Z.of_nat (length l')) a b c) \/
    (r = Panics /\ exists l', In (VArr l') cands /\ overflowing (Z.of_nat (length l')) a b c)).
Proof. exact slice_exact. Qed.
Print Assumptions C23_slice_partial.

Example C23_ex : let l := [VInt64 0; VInt64 1; VInt64 2; VInt64 3; VInt64 4] in
  let sl a b c := mkSlice (option_map BInt a) (option_map BInt b) (option_map BInt c) in
  let run a b c r := runs x_world x_doc 0 [VArr l] [mkStep OpSelect [PSlice (sl a b c)]] (OK (r, 0%nat)) in
  run (Some 1) None (Some 2) [VInt64 1; VInt64 3] /\ run (Some (-2)) (Some 100) None [VInt64 3; VInt64 4] /\
  run None (Some 1) (Some (-2)) [VInt64 4; VInt64 2] /\ run None None (Some 0) [] /\
  slice_positions 5 (Some 1) None (Some 2) [1; 3].
Proof.
  split; [run_it|]. split; [run_it|]. split; [run_it|]. split; [run_it|].
  apply (SlUp 5 (Some 1) None (Some 2) 2 2); [reflexivity|lia|]. intro k.
  change (clip 0 5 (from_end 5 (or_default 0 (Some 1)))) with 1.
  change (clip 0 5 (from_end 5 (or_default 5 None))) with 5. lia.
Qed.

(** $[1:3:9223372036854775807] panics on an array of three elements, where the rule selects
    the element at position 1. *)
Theorem C23_refuted : exists s root l, doc root /\
  picks (SSlice (Some 1) (Some 3) (Some 9223372036854775807)) root l /\
  forall TX, ParsePath TX s = OK [mkStep OpSelect [PSlice (mkSlice (Some (BInt 1)) (Some (BInt 3))
    (Some (BInt 9223372036854775807)))]] /\
  exists jp, JP_Compile TX s = OK jp /\ forall W t, JP_Eval W t jp root Panics.
Proof. exact slice_panics. Qed.
Print Assumptions C23_refuted.

(** ** C24 *)
(** A step with literal selectors on several candidates gives the concatenation of what it
    gives on each alone.  Missing: slices where some candidate is not an array, where it is
    false. *)
Theorem C24_literal_partial : forall W root t cands s sels l t', orders_ok W -> doc root -> Forall doc cands ->
  wf_step s -> small [s] -> is_select (st_op s) = true ->
  Forall2 (selector (counts_back (st_op s))) (st_args s) sels ->
  Forall (fun a => ~ discards a) (applications sels cands) ->
  (runs W root t cands [s] (OK (l, t')) <-> one_by_one W root s t cands l t').
Proof. exact select_one_by_one. Qed.
Print Assumptions C24_literal_partial.

(** The same for wildcards, without exception. *)
Theorem C24_wild : forall W root cands, orders_ok W -> doc root -> Forall doc cands ->
  forall t l t', runs W root t cands [mkStep OpWild []] (OK (l, t')) <->
    one_by_one W root (mkStep OpWild []) t cands l t'.
Proof. exact wild_one_by_one. Qed.
Print Assumptions C24_wild.

Example C24_ex : let s := mkStep OpUnion [PInt 1; PName (b_of "a")] in
  wf_step s /\ small [s] /\ Forall (fun a => ~ discards a) (applications [SIndex true 1; SName (b_of "a")] x_cands) /\
  runs x_world x_doc 0 x_cands [s] (OK ([VBool true; VNil], 0%nat)).
Proof.
  split; [repeat constructor; cbn; discriminate|]. split; [vm_compute; reflexivity|]. split; [|run_it].
  repeat constructor; intros [].
Qed.

(** [0:1] on the candidates [1] and 2 selects nothing, though it selects 1 from the first
    alone and nothing from the second alone. *)
Theorem C24_refuted : exists s cands, wf_step s /\ Forall doc cands /\ forall W root t,
  runs W root t cands [s] (OK ([], t)) /\ one_by_one W root s t cands [VInt64 1] t.
Proof. exact slice_discards. Qed.
Print Assumptions C24_refuted.

(** ** C25 *)
(** What a union of literal selectors does: a slice applied to something that is not an
    array discards what the step has selected so far (see [collects]). *)
Theorem C25_exact : forall W root t cands args sels r, orders_ok W -> doc root -> Forall doc cands ->
  wf_step (mkStep OpUnion args) -> small [mkStep OpUnion args] -> Forall2 (selector true) args sels ->
  (runs W root t cands [mkStep OpUnion args] r <->
   (exists l, r = OK (l, t) /\ collects (applications sels cands) l /\
      Forall (fun a => ~ app_overflows a) (applications sels cands)) \/
   (r = Panics /\ Exists app_overflows (applications sels cands))).
Proof. exact union_exact. Qed.
Print Assumptions C25_exact.

(** The ordered concatenation, if no slice meets a candidate that is not an array. *)
Theorem C25_union_partial : forall W root t cands args sels l t', orders_ok W -> doc root -> Forall doc cands ->
  wf_step (mkStep OpUnion args) -> small [mkStep OpUnion args] -> Forall2 (selector true) args sels ->
  (Exists (fun s => is_slice s = true) sels -> Forall (fun v => IsArray v = true) cands) ->
  runs W root t cands [mkStep OpUnion args] (OK (l, t')) -> t' = t /\ gathers (picks_all sels) cands l.
Proof. exact union_gathers. Qed.
Print Assumptions C25_union_partial.

Example C25_ex : let s := mkStep OpUnion [PInt 1; PInt 0; PInt 1; PStr (b_of "7")] in
  wf_step s /\ small [s] /\
  runs x_world x_doc 0 x_cands [s] (OK ([VBool true; VInt64 1; VBool true; VInt64 2], 0%nat)).
Proof.
  split; [|split; [vm_compute; reflexivity|run_it]].
  apply WfUnion; [cbn; lia|]. repeat constructor; cbn; discriminate.
Qed.

(** $['a',0:1] selects nothing from {"a": 1}. *)
Theorem C25_refuted : exists s root args sels, doc root /\ Forall2 (selector true) args sels /\
  picks_all sels root [VInt64 1] /\ forall TX, ParsePath TX s = OK [mkStep OpUnion args] /\
  exists jp, JP_Compile TX s = OK jp /\ forall W t, JP_Eval W t jp root (OK []).
Proof. exact union_discards. Qed.
Print Assumptions C25_refuted.

(** ** C27 *)
(** A .. step with literal selectors applies them to every container in each candidate,
    once each, parents first (see [visits_containers]).  Selectors that are expressions and
    filters: C27_script and C27_filter in PropertiesSem. *)
Theorem C27_select_partial : forall W root t cands s sels, orders_ok W -> doc root -> Forall doc cands ->
  wf_step s -> small [s] -> is_nest_select (st_op s) = true ->
  Forall2 (selector (counts_back (st_op s))) (st_args s) sels ->
  (exists r, runs W root t cands [s] r) /\
  forall r, runs W root t cands [s] r -> exists dots, gathers visits_containers cands dots /\
   ((exists l t', r = OK (l, t') /\ collects (applications sels dots) l /\
      Forall (fun a => ~ app_overflows a) (applications sels dots)) \/
    (r = Panics /\ Exists app_overflows (applications sels dots))).
Proof. exact nest_visits. Qed.
Print Assumptions C27_select_partial.

Theorem C27_wild : forall W root t cands, orders_ok W -> doc root -> Forall doc cands ->
  (exists r, runs W root t cands [mkStep OpNestWild []] r) /\
  forall r, runs W root t cands [mkStep OpNestWild []] r ->
    exists dots l t', r = OK (l, t') /\ gathers visits_containers cands dots /\ gathers children_in_order dots l.
Proof. exact nest_wild_visits. Qed.
Print Assumptions C27_wild.

Example C27_ex :
  runs x_world_rev x_doc 0 [x_doc] [mkStep OpNestMember [PName (b_of "b")]]
    (OK ([VNil; VStr (b_of "x")], 3%nat)) /\
  runs x_world x_doc 0 [x_doc] [mkStep OpNestSelect [PInt 0]] (OK ([VInt64 1], 3%nat)).
Proof. split; run_it. Qed.

(** $..[?(1==1)] applies its filter to null on 42, where there is no container. *)
Theorem C27_refuted : exists s root, doc root /\ IsStructure root = false /\ forall TX,
  ParsePath TX s = OK [mkStep OpNestFilter [PExpr (EInner OpEQ [EInt 1; EInt 1])]] /\
  exists jp, JP_Compile TX s = OK jp /\ forall W t, JP_Eval W t jp root (OK [VNil]).
Proof. exact nest_null. Qed.
Print Assumptions C27_refuted.

(** ** C53 *)
(** Steps [p] followed by steps [q]. *)
Theorem C53_composition : forall W root t cands p q r, orders_ok W -> doc root -> Forall doc cands ->
  wf_path (p ++ q) -> small (p ++ q) ->
  (runs W root t cands (p ++ q) r <->
   (exists l t1, runs W root t cands p (OK (l, t1)) /\ runs W root t1 l q r) \/
   (exists e, runs W root t cands p (Fail e) /\ r = Fail e) \/
   (runs W root t cands p Panics /\ r = Panics)).
Proof. exact runs_app. Qed.
Print Assumptions C53_composition.

(** An empty selection stays empty. *)
Theorem C53_empty : forall W root t ss l t', orders_ok W -> doc root -> wf_path ss -> small ss ->
  runs W root t [] ss (OK (l, t')) -> l = [].
Proof. exact runs_empty. Qed.
Print Assumptions C53_empty.

(** Evaluating a text is running its steps on the document. *)
Theorem C53_text : forall TX s ss jp, accepted TX s ss jp -> fits jp ->
  forall W t root r, orders_ok W -> doc root ->
  (JP_Eval W t jp root r <->
   exists r', runs W root t [root] ss r' /\ r = (let! (l, _) := r' in OK l)).
Proof. exact text_runs. Qed.
Print Assumptions C53_text.

(** A text whose steps begin with those of another gives the result of running the rest on
    the other's result. *)
Theorem C53_texts : forall TX s s1 ss q jp jp1, accepted TX s (ss ++ q) jp -> accepted TX s1 ss jp1 -> fits jp ->
  forall W t root l, orders_ok W -> doc root ->
  (JP_Eval W t jp root (OK l) <->
   exists l1 t1 t2, runs W root t [root] ss (OK (l1, t1)) /\ JP_Eval W t jp1 root (OK l1) /\
     runs W root t1 l1 q (OK (l, t2))).
Proof. exact text_app. Qed.
Print Assumptions C53_texts.

Example C53_ex : let s := b_of "$.a[2].b" in let s1 := b_of "$.a" in
  accepted x_text s (steps_of s1 ++ [mkStep OpSelect [PInt 2]; mkStep OpMember [PName (b_of "b")]]) (jp_of s) /\
  accepted x_text s1 (steps_of s1) (jp_of s1) /\ fits (jp_of s) /\
  JP_Eval x_world 0 (jp_of s) x_doc (OK [VStr (b_of "x")]).
Proof.
  split; [apply (acceptedb_ok (b_of "$.a[2].b")); vm_compute; reflexivity|].
  split; [apply acceptedb_ok; vm_compute; reflexivity|]. split; [vm_compute; reflexivity|].
  split; [discriminate|]. exists 100%nat. vm_compute. reflexivity.
Qed.
