(** Laws relating the results of different paths, or of a path on different documents
    (C72-C75, C79, C80). *)
From Coq Require Import Permutation.
From Verif Require Import Syntax SpecSyntax Machine SpecDoc SpecRun SpecCode SpecText SpecSem SpecShape SpecLaws Api ShapeProofs LawProofs SliceLaws RootProofs UnfoldProofs SemExact Examples.
Local Open Scope Z_scope.

(** ** C72 *)
(** A path without filters and script expressions selects by shape alone: on two documents with
    the same arrays, objects and keys it selects the same places in the same order. *)
Theorem C72_shape : forall TX s ss jp W t R root root' r, accepted TX s ss jp -> fits jp -> plain ss -> orders_ok W ->
  doc root -> doc root' -> shape R root root' -> JP_Eval W t jp root r ->
  exists r', JP_Eval W t jp root' r' /\ shape_outcome R r r'.
Proof. exact eval_shape. Qed.
Print Assumptions C72_shape.

(** Replacing the scalars of the document replaces those of the results. *)
Theorem C72_scalars : forall TX s ss jp W t f root l, accepted TX s ss jp -> fits jp -> plain ss -> orders_ok W ->
  (forall v, IsStructure v = false -> IsStructure (f v) = false) -> doc root -> doc (scalars f root) ->
  JP_Eval W t jp root (OK l) -> JP_Eval W t jp (scalars f root) (OK (map (scalars f) l)).
Proof. exact eval_scalars. Qed.
Print Assumptions C72_scalars.

Ltac runs := split; [discriminate|]; exists 400%nat; vm_compute; reflexivity.
Ltac accepts := split; [apply acceptedb_ok; vm_compute; reflexivity|vm_compute; reflexivity].
Definition x_pairs (a b c : val) : val := VArr [VObj [(b_of "k", a); (b_of "m", VArr [b])]; VObj [(b_of "k", c)]].

Example C72_ex : let s := b_of "$..['k',0]" in
  let root := x_pairs (VInt64 1) (VInt64 2) (VStr []) in let root' := x_pairs VNil (VBool true) (VInt64 7) in
  accepted x_text s (steps_of s) (jp_of s) /\ fits (jp_of s) /\ plain (steps_of s) /\ doc root /\ doc root' /\
  shape (fun _ _ => True) root root' /\ root' = scalars (fun v => match v with VStr _ => VInt64 7 | VInt64 1 => VNil | _ => VBool true end) root /\
  JP_Eval x_world 0 (jp_of s) root (OK [VObj [(b_of "k", VInt64 1); (b_of "m", VArr [VInt64 2])]; VInt64 1; VInt64 2; VStr []]) /\
  JP_Eval x_world 0 (jp_of s) root' (OK [VObj [(b_of "k", VNil); (b_of "m", VArr [VBool true])]; VNil; VBool true; VInt64 7]).
Proof.
  cbn zeta. split; [apply acceptedb_ok; vm_compute; reflexivity|]. split; [vm_compute; reflexivity|].
  split; [repeat constructor|]. split; [apply docb_doc; vm_compute; reflexivity|]. split; [apply docb_doc; vm_compute; reflexivity|].
  split; [unfold x_pairs; repeat first [apply ShArr | apply ShObj | apply Forall2_cons | apply Forall2_nil | split; [reflexivity|] | apply ShFlat; [reflexivity|reflexivity|exact I] | cbn [snd fst]]|].
  split; [reflexivity|]. split; runs.
Qed.

(** ** C73 *)
(** [?(e)] and [?(!e)] share out what [?(true)] gives between them, keeping its order, or both
    give the same error; so do ..[?(e)] and ..[?(!e)]. *)
Theorem C73_not : forall TX pre o e s1 jp1 s2 jp2 s3 jp3 W t root r, filter_op o ->
  filters TX pre o e s1 jp1 -> filters TX pre o (EInner OpNot [e]) s2 jp2 -> filters TX pre o (EBool true) s3 jp3 ->
  orders_ok W -> doc root -> JP_Eval W t jp1 root r ->
  (exists l1 l2 l, r = OK l1 /\ JP_Eval W t jp2 root (OK l2) /\ JP_Eval W t jp3 root (OK l) /\ interleaves l1 l2 l) \/
  ((forall l, r <> OK l) /\ JP_Eval W t jp2 root r).
Proof. exact eval_not. Qed.
Print Assumptions C73_not.

(** If [?(e1)] and [?(e2)] give no error, [?(e1 && e2)] keeps what both keep and [?(e1 || e2)]
    what either keeps. *)
Theorem C73_and_or : forall TX pre o e1 e2 s1 jp1 s2 jp2 s3 jp3 s4 jp4 s5 jp5 W t root l1 l2, filter_op o ->
  filters TX pre o e1 s1 jp1 -> filters TX pre o e2 s2 jp2 -> filters TX pre o (EInner OpAnd [e1; e2]) s3 jp3 ->
  filters TX pre o (EInner OpOr [e1; e2]) s4 jp4 -> filters TX pre o (EBool true) s5 jp5 ->
  keyless e1 -> keyless e2 -> orders_ok W -> doc root -> JP_Eval W t jp1 root (OK l1) -> JP_Eval W t jp2 root (OK l2) ->
  exists l bs1 bs2, JP_Eval W t jp5 root (OK l) /\ length bs1 = length l /\ length bs2 = length l /\
    l1 = chosen bs1 l /\ l2 = chosen bs2 l /\
    JP_Eval W t jp3 root (OK (chosen (map (fun p => fst p && snd p) (combine bs1 bs2)) l)) /\
    JP_Eval W t jp4 root (OK (chosen (map (fun p => fst p || snd p) (combine bs1 bs2)) l)).
Proof. exact eval_and_or. Qed.
Print Assumptions C73_and_or.

Definition x_gt2 : expr := EInner OpGT [ECurrent; EInt 2].
Definition x_lt4 : expr := EInner OpLT [ECurrent; EInt 4].
Example C73_ex : let pre := [mkStep OpMember [PName (b_of "a")]] in
  let root := VObj [(b_of "a", VArr [VInt64 1; VInt64 3; VInt64 5])] in
  let s1 := b_of "$.a[?(@>2)]" in let s2 := b_of "$.a[?(@<4)]" in let s3 := b_of "$.a[?(@>2&&@<4)]" in let s4 := b_of "$.a[?(@>2||@<4)]" in
  let s5 := b_of "$.a[?(true)]" in let s6 := b_of "$.a[?(!(@>2))]" in
  filters x_text pre OpFilter x_gt2 s1 (jp_of s1) /\ filters x_text pre OpFilter x_lt4 s2 (jp_of s2) /\
  filters x_text pre OpFilter (EInner OpAnd [x_gt2; x_lt4]) s3 (jp_of s3) /\ filters x_text pre OpFilter (EInner OpOr [x_gt2; x_lt4]) s4 (jp_of s4) /\
  filters x_text pre OpFilter (EBool true) s5 (jp_of s5) /\ filters x_text pre OpFilter (EInner OpNot [x_gt2]) s6 (jp_of s6) /\
  keyless x_gt2 /\ keyless x_lt4 /\ doc root /\
  JP_Eval x_world 0 (jp_of s1) root (OK [VInt64 3; VInt64 5]) /\ JP_Eval x_world 0 (jp_of s2) root (OK [VInt64 1; VInt64 3]) /\
  JP_Eval x_world 0 (jp_of s3) root (OK [VInt64 3]) /\ JP_Eval x_world 0 (jp_of s4) root (OK [VInt64 1; VInt64 3; VInt64 5]) /\
  JP_Eval x_world 0 (jp_of s6) root (OK [VInt64 1]).
Proof.
  cbn zeta. do 6 (split; [accepts|]).
  assert (K : forall o z, o <> OpCall -> keyless (EInner o [ECurrent; EInt z])).
  { intros o z Ho args H. inversion H as [E|o' kids e Hin H']; subst. destruct Hin as [<-|[<-|[]]]; inversion H'. }
  split; [apply K; discriminate|]. split; [apply K; discriminate|]. split; [apply docb_doc; vm_compute; reflexivity|].
  split; [runs|]. split; [runs|]. split; [runs|]. split; runs.
Qed.

(** ** C74 *)
(** $[a:b] on an array gives its elements from the place a stands for up to the place b stands
    for. *)
Theorem C74_section : forall TX a b s jp W t l, let len := Z.of_nat (length l) in
  subscript TX (PSlice (mkSlice (bound_of a) (bound_of b) None)) s jp -> orders_ok W -> doc (VArr l) ->
  JP_Eval W t jp (VArr l) (OK (section (place len (SpecSelect.or_default 0 a)) (place len (SpecSelect.or_default len b)) l)).
Proof. exact eval_section. Qed.
Print Assumptions C74_section.

(** $[a:b] and $[b:c] make up $[a:c], if b is not before a or after c. *)
Theorem C74_cut : forall TX a b c s1 jp1 s2 jp2 s3 jp3 W t l, let len := Z.of_nat (length l) in
  subscript TX (PSlice (mkSlice (bound_of a) (Some (BInt b)) None)) s1 jp1 -> subscript TX (PSlice (mkSlice (Some (BInt b)) (bound_of c) None)) s2 jp2 ->
  subscript TX (PSlice (mkSlice (bound_of a) (bound_of c) None)) s3 jp3 -> orders_ok W -> doc (VArr l) ->
  place len (SpecSelect.or_default 0 a) <= place len b <= place len (SpecSelect.or_default len c) ->
  exists l1 l2, JP_Eval W t jp1 (VArr l) (OK l1) /\ JP_Eval W t jp2 (VArr l) (OK l2) /\ JP_Eval W t jp3 (VArr l) (OK (l1 ++ l2)).
Proof. exact eval_cut. Qed.
Print Assumptions C74_cut.

(** $[i] and $[i:i+1] give the same, but for i = -1. *)
Theorem C74_single : forall TX i s1 jp1 s2 jp2 W t l, subscript TX (PInt i) s1 jp1 ->
  subscript TX (PSlice (mkSlice (Some (BInt i)) (Some (BInt (i + 1))) None)) s2 jp2 -> orders_ok W -> doc (VArr l) -> i <> -1 ->
  exists r, JP_Eval W t jp1 (VArr l) (OK r) /\ JP_Eval W t jp2 (VArr l) (OK r).
Proof. exact eval_single. Qed.
Print Assumptions C74_single.

(** $[::-1] reverses an array. *)
Theorem C74_reverse : forall TX s jp W t l, subscript TX (PSlice (mkSlice None None (Some (BInt (-1))))) s jp -> orders_ok W -> doc (VArr l) ->
  JP_Eval W t jp (VArr l) (OK (rev l)).
Proof. exact eval_reverse. Qed.
Print Assumptions C74_reverse.

(** $[::c] gives every c-th element, starting with the first. *)
Theorem C74_stride : forall TX c s jp W t l, subscript TX (PSlice (mkSlice None None (Some (BInt c)))) s jp -> orders_ok W -> doc (VArr l) ->
  0 < c -> Z.of_nat (length l) + c <= 9223372036854775807 ->
  exists r, JP_Eval W t jp (VArr l) (OK r) /\ forall k, nth_error r k = nth_error l (k * Z.to_nat c).
Proof. exact eval_stride. Qed.
Print Assumptions C74_stride.

Definition x_five : val := VArr [VInt64 1; VInt64 2; VInt64 3; VInt64 4; VInt64 5].
Example C74_ex : let s1 := b_of "$[-4:3]" in let s2 := b_of "$[3:]" in let s3 := b_of "$[-4:]" in let s4 := b_of "$[-4]" in let s5 := b_of "$[-4:-3]" in
  let s6 := b_of "$[::-1]" in let s7 := b_of "$[::2]" in
  subscript x_text (PSlice (mkSlice (bound_of (Some (-4))) (Some (BInt 3)) None)) s1 (jp_of s1) /\
  subscript x_text (PSlice (mkSlice (Some (BInt 3)) (bound_of None) None)) s2 (jp_of s2) /\
  subscript x_text (PSlice (mkSlice (bound_of (Some (-4))) (bound_of None) None)) s3 (jp_of s3) /\
  subscript x_text (PInt (-4)) s4 (jp_of s4) /\ subscript x_text (PSlice (mkSlice (Some (BInt (-4))) (Some (BInt (-4 + 1))) None)) s5 (jp_of s5) /\
  subscript x_text (PSlice (mkSlice None None (Some (BInt (-1))))) s6 (jp_of s6) /\ subscript x_text (PSlice (mkSlice None None (Some (BInt 2)))) s7 (jp_of s7) /\
  doc x_five /\ place 5 (-4) <= place 5 3 <= place 5 5 /\
  JP_Eval x_world 0 (jp_of s1) x_five (OK [VInt64 2; VInt64 3]) /\ JP_Eval x_world 0 (jp_of s2) x_five (OK [VInt64 4; VInt64 5]) /\
  JP_Eval x_world 0 (jp_of s3) x_five (OK [VInt64 2; VInt64 3; VInt64 4; VInt64 5]) /\ JP_Eval x_world 0 (jp_of s4) x_five (OK [VInt64 2]) /\
  JP_Eval x_world 0 (jp_of s6) x_five (OK [VInt64 5; VInt64 4; VInt64 3; VInt64 2; VInt64 1]) /\
  JP_Eval x_world 0 (jp_of s7) x_five (OK [VInt64 1; VInt64 3; VInt64 5]).
Proof.
  cbn zeta. do 7 (split; [accepts|]). split; [apply docb_doc; vm_compute; reflexivity|]. split; [vm_compute; split; discriminate|].
  do 5 (split; [runs|]). runs.
Qed.

(** ** C75 *)
(** A path of members, subscripts and unions that does not call keys() has one outcome, whatever
    the order of iteration over maps. *)
Theorem C75_direct : forall TX s ss jp W perm t t' root r, accepted TX s ss jp -> fits jp -> direct ss -> ~ calls_keys ss ->
  orders_ok W -> orders_ok (reordered W perm) -> doc root -> JP_Eval W t jp root r -> JP_Eval (reordered W perm) t' jp root r.
Proof. exact eval_direct. Qed.
Print Assumptions C75_direct.

Example C75_ex : let s := b_of "$['b','a'][(1-1)].c" in
  let root := VObj [(b_of "a", VArr [VObj [(b_of "c", VInt64 1)]]); (b_of "b", VArr [VObj [(b_of "c", VInt64 2)]; VNil])] in
  accepted x_text s (steps_of s) (jp_of s) /\ fits (jp_of s) /\ direct (steps_of s) /\ ~ calls_keys (steps_of s) /\
  orders_ok x_world /\ orders_ok (reordered x_world backwards) /\ doc root /\
  JP_Eval x_world 0 (jp_of s) root (OK [VInt64 2; VInt64 1]).
Proof.
  cbn zeta. split; [apply acceptedb_ok; vm_compute; reflexivity|]. split; [vm_compute; reflexivity|].
  split; [repeat constructor|]. split.
  { intros (args & st & e & Hs & He & Hp). cbn in Hs. destruct Hs as [<-|[<-|[<-|[]]]]; cbn in He; repeat destruct He as [He|He]; try discriminate He; try contradiction.
    injection He as <-. inversion Hp as [E|o' kids e Hin H']; subst. destruct Hin as [<-|[<-|[]]]; inversion H'. }
  split; [exact x_world_ok|]. split; [apply backwards_ok|]. split; [apply docb_doc; vm_compute; reflexivity|]. runs.
Qed.

(** ** C79 *)
(** A path whose first steps select one value, and whose other steps do not mention $ in
    expressions, selects what the other steps select from that value as a document. *)
Theorem C79_relocation : forall TX s1 p jp1 s2 q jp2 s jp W t root v, accepted TX s1 p jp1 -> fits jp1 -> accepted TX s2 q jp2 -> fits jp2 ->
  accepted TX s (p ++ q) jp -> fits jp -> rootless q -> orders_ok W -> doc root -> JP_Eval W t jp1 root (OK [v]) ->
  exists t', forall r, JP_Eval W t jp root r <-> JP_Eval W t' jp2 v r.
Proof. exact eval_relocated. Qed.
Print Assumptions C79_relocation.

(** $.a, and $[?(@.b > 3)].b on what it selects. *)
Example C79_ex : let a s := accepted x_text (b_of s) (steps_of (b_of s)) (jp_of (b_of s)) /\ fits (jp_of (b_of s)) in
  let root := VObj [(b_of "a", VArr [VObj [(b_of "b", VInt64 2)]; VObj [(b_of "b", VInt64 5)]])] in
  let v := VArr [VObj [(b_of "b", VInt64 2)]; VObj [(b_of "b", VInt64 5)]] in
  a "$.a"%string /\ a "$[?(@.b > 3)].b"%string /\ a "$.a[?(@.b > 3)].b"%string /\
  steps_of (b_of "$.a[?(@.b > 3)].b") = steps_of (b_of "$.a") ++ steps_of (b_of "$[?(@.b > 3)].b") /\
  rootless (steps_of (b_of "$[?(@.b > 3)].b")) /\ doc root /\ JP_Eval x_world 0 (jp_of (b_of "$.a")) root (OK [v]) /\
  JP_Eval x_world 0 (jp_of (b_of "$[?(@.b > 3)].b")) v (OK [VInt64 5]) /\
  (* with $ in an expression it matters what the document is *)
  JP_Eval x_world 0 (jp_of (b_of "$.a[?($.a)].b")) root (OK [VInt64 2; VInt64 5]) /\
  JP_Eval x_world 0 (jp_of (b_of "$[?($.a)].b")) v (OK []).
Proof.
  cbv beta zeta. repeat match goal with |- (accepted _ _ _ _ /\ fits _) /\ _ => split; [split; [apply acceptedb_ok; vm_compute; reflexivity|vm_compute; reflexivity]|] end.
  split; [vm_compute; reflexivity|]. split.
  { apply rootlessb_ok. vm_compute. reflexivity. }
  split; [apply docb_doc; vm_compute; reflexivity|]. repeat split; try discriminate; exists 400%nat; vm_compute; reflexivity.
Qed.

(** ** C80 *)
(** ..x selects what x does, and what ..x selects from the children; here x is a member, a
    subscript, a union of literals, or a wildcard. *)
Theorem C80_unfold : forall TX o no args s jp s1 jp1 s2 jp2 W W1 W2 t t1 t2 root r r1 r2, nested o no -> Forall literal_key args ->
  accepted TX s [mkStep no args] jp -> accepted TX s1 [mkStep o args] jp1 -> accepted TX s2 [mkStep OpWild []; mkStep no args] jp2 ->
  fits jp -> fits jp1 -> fits jp2 -> orders_ok W -> orders_ok W1 -> orders_ok W2 -> doc root ->
  JP_Eval W t jp root r -> JP_Eval W1 t1 jp1 root r1 -> JP_Eval W2 t2 jp2 root r2 ->
  exists l l1 l2, r = OK l /\ r1 = OK l1 /\ r2 = OK l2 /\ Permutation l (l1 ++ l2).
Proof. exact eval_unfold. Qed.
Print Assumptions C80_unfold.

(** The same for steps on any selection. *)
Theorem C80_steps : forall W W1 W2 t t1 t2 root root1 root2 o no args cands r r1 r2, nested o no -> Forall literal_key args ->
  small [mkStep no args] -> small [mkStep o args] -> small [mkStep OpWild []; mkStep no args] -> wf_step (mkStep no args) -> wf_step (mkStep o args) ->
  orders_ok W -> orders_ok W1 -> orders_ok W2 -> doc root -> doc root1 -> doc root2 -> Forall doc cands ->
  runs W root t cands [mkStep no args] r -> runs W1 root1 t1 cands [mkStep o args] r1 -> runs W2 root2 t2 cands [mkStep OpWild []; mkStep no args] r2 ->
  exists l l1 l2 u u1 u2, r = OK (l, u) /\ r1 = OK (l1, u1) /\ r2 = OK (l2, u2) /\ Permutation l (l1 ++ l2).
Proof. exact steps_unfold. Qed.
Print Assumptions C80_steps.

Example C80_ex : let a s := accepted x_text (b_of s) (steps_of (b_of s)) (jp_of (b_of s)) /\ fits (jp_of (b_of s)) in
  let args := [PInt 0; PName (b_of "a")] in
  let root := VObj [(b_of "a", VArr [VInt64 1; VObj [(b_of "a", VInt64 2)]]); (b_of "b", VArr [VInt64 3])] in
  a "$..[0,a]"%string /\ a "$[0,a]"%string /\ a "$.*..[0,a]"%string /\ nested OpUnion OpNestUnion /\ Forall literal_key args /\
  steps_of (b_of "$..[0,a]") = [mkStep OpNestUnion args] /\ steps_of (b_of "$[0,a]") = [mkStep OpUnion args] /\
  steps_of (b_of "$.*..[0,a]") = [mkStep OpWild []; mkStep OpNestUnion args] /\ doc root /\
  JP_Eval x_world 0 (jp_of (b_of "$..[0,a]")) root (OK [VArr [VInt64 1; VObj [(b_of "a", VInt64 2)]]; VInt64 1; VInt64 2; VInt64 3]) /\
  JP_Eval x_world 0 (jp_of (b_of "$[0,a]")) root (OK [VArr [VInt64 1; VObj [(b_of "a", VInt64 2)]]]) /\
  JP_Eval x_world 0 (jp_of (b_of "$.*..[0,a]")) root (OK [VInt64 1; VInt64 2; VInt64 3]).
Proof.
  cbv beta zeta. repeat match goal with |- (accepted _ _ _ _ /\ fits _) /\ _ => split; [split; [apply acceptedb_ok; vm_compute; reflexivity|vm_compute; reflexivity]|] end.
  split; [constructor|]. split; [repeat constructor|]. do 3 (split; [vm_compute; reflexivity|]). split; [apply docb_doc; vm_compute; reflexivity|].
  repeat split; try discriminate; exists 400%nat; vm_compute; reflexivity.
Qed.
