(** A reference evaluator with filters and scripts (C103), and which objects' members must have
    an order (C104). *)
From Coq Require Import Permutation.
From Verif Require Import Base Syntax SpecSyntax Value Machine Parser Api SpecDoc SpecSelect SpecRun SpecExpr SpecText SpecSem SpecEq SpecLoose SpecFind SpecTake SpecListed SpecFetch
  LooseProofs ListedProofs SemExact FetchMore OnceMore Examples.
Local Open Scope Z_scope.

Local Ltac eval_it := split; [discriminate|]; exists 200%nat; vm_compute; reflexivity.

(** ** C103 *)
(** For all paths, the machine gives exactly what the short evaluator [fetch_path] gives: the same
    values in the same order, the same error, or a panic when it does, if no object has two
    members, or keys is not called and none that a step lists has.  [same]
    decides the relation that == is (C68); [name] gives the names that values stand for as
    arguments. *)
Theorem C103_reference : forall TX s ss jp W t root r same name, accepted TX s ss jp -> fits jp -> orders_ok W -> splits_ok W -> doc root ->
  (forall a b, (forall x, within x b -> distinct_names x) -> (same a b = true <-> loose W a b)) ->
  (forall v k, named W v k -> name v = k) -> lone_members root \/ ~ calls_keys ss /\ in_order W same name root ss [root] = true ->
  JP_Eval W t jp root r -> r = fetch_path W same name root ss [root].
Proof. exact text_fetched. Qed.
Print Assumptions C103_reference.

(** If slices are applied to arrays only, then whatever the members, it gives the same values in
    some order, or an error when the evaluator does. *)
Theorem C103_unordered : forall TX s ss jp W t root r same name, accepted TX s ss jp -> fits jp -> orders_ok W -> splits_ok W -> doc root ->
  (forall a b, (forall x, within x b -> distinct_names x) -> (same a b = true <-> loose W a b)) ->
  (forall v k, named W v k -> name v = k) -> ~ calls_keys ss -> slices_only_arrays W same name root ss [root] = true -> JP_Eval W t jp root r ->
  agree r (fetch_path W same name root ss [root]).
Proof. exact text_fetch_alike. Qed.
Print Assumptions C103_unordered.

(** every text is one piece in the example world *)
Example x_splits_ok : splits_ok x_world.
Proof. intros p s. vm_compute. discriminate. Qed.

(** an array of objects, some without the member, and a text among the numbers; then a filter
    that finds nothing to try but null *)
Example C103_ex : let s1 := b_of "$[?(@.a > 1 || !@.a)].a" in let s2 := b_of "$[1].a[?(!@)]" in
  let root := VArr [VObj [(b_of "a", VInt64 2)]; VObj [(b_of "a", VInt64 1)]; VObj [(b_of "b", VInt64 7)]; VObj [(b_of "a", VStr (b_of "9"))];
    VObj [(b_of "a", VInt64 0)]] in
  (forall a b, (forall x, within x b -> distinct_names x) -> (eqVal x_world a b = true <-> loose x_world a b)) /\
  (forall v k, named x_world v k -> mapKey x_world v = k) /\ ~ calls_keys (steps_of s1) /\ ~ calls_keys (steps_of s2) /\ lone_members root /\
  gives s1 root [VInt64 2; VInt64 0] /\ gives s2 root [VNil] /\
  fetch_path x_world (eqVal x_world) (mapKey x_world) root (steps_of s1) [root] = OK [VInt64 2; VInt64 0].
Proof.
  cbv zeta. split; [exact (eq_loose x_world)|]. split; [exact (mapKey_only x_world)|].
  assert (P1 : ~ calls_keys (steps_of (b_of "$[?(@.a > 1 || !@.a)].a"))) by (apply keylessb_ok; vm_compute; reflexivity).
  assert (P2 : ~ calls_keys (steps_of (b_of "$[1].a[?(!@)]"))) by (apply keylessb_ok; vm_compute; reflexivity).
  split; [exact P1|]. split; [exact P2|]. split; [unfold lone_members; apply loneb_ok; vm_compute; reflexivity|].
  split; [gives_tac|]. split; [gives_tac|]. vm_compute. reflexivity.
Qed.

(** keys() in a document whose objects have one member *)
Example C103_keys_ex : let s := b_of "$[?('a' in keys(@) && keys(@)[0] != 'b' || length(keys(@)) > 1)].a" in
  let rows := [VObj [(b_of "a", VInt64 2)]; VObj [(b_of "b", VInt64 7)]; VObj []; VObj [(b_of "a", VNil)]] in let root := VArr rows in
  calls_keys (steps_of s) /\ lone_members root /\ gives s root [VInt64 2; VNil] /\
  fetch_path x_world (eqVal x_world) (mapKey x_world) root (steps_of s) [root] = OK [VInt64 2; VNil] /\
  (let s := b_of "$[?(!keys(@.a))]" in gives s root rows /\ fetch_path x_world (eqVal x_world) (mapKey x_world) root (steps_of s) [root] = OK rows).
Proof.
  cbv zeta. split; [exists [ECurrent]; do 2 eexists; split; [vm_compute; left; reflexivity|]; split; [left; reflexivity|]; do 2 (eapply PoKid; [left; reflexivity|]); eapply PoKid; [right; left; reflexivity|]; apply PoSelf|]. split; [unfold lone_members; apply loneb_ok; vm_compute; reflexivity|]. split; [gives_tac|].
  split; [vm_compute; reflexivity|]. split; [gives_tac|vm_compute; reflexivity].
Qed.

(** the cheap novels of a store, wherever they are *)
Example C103_unordered_ex : let s := b_of "$..book[?(@.price < $.limit && @['category'] == 'fiction')].title[:]" in
  let book c n t := VObj [(b_of "category", VStr (b_of c)); (b_of "price", VInt64 n); (b_of "title", VArr [VStr (b_of t)])] in
  let root := VObj [(b_of "limit", VInt64 10); (b_of "store", VObj [(b_of "book",
    VArr [book "reference" 8 "A"; book "fiction" 12 "B"; book "fiction" 9 "C"])])]%string in
  ~ calls_keys (steps_of s) /\ slices_only_arrays x_world (eqVal x_world) (mapKey x_world) root (steps_of s) [root] = true /\
  ~ lone_members root /\ fetch_path x_world (eqVal x_world) (mapKey x_world) root (steps_of s) [root] = OK [VStr (b_of "C")] /\
  gives s root [VStr (b_of "C")].
Proof.
  cbv zeta.
  assert (P : ~ calls_keys (steps_of (b_of "$..book[?(@.price < $.limit && @['category'] == 'fiction')].title[:]"))) by (apply keylessb_ok; vm_compute; reflexivity).
  split; [exact P|]. split; [vm_compute; reflexivity|]. split; [intro H; specialize (H _ (WSelf _)); cbn in H; lia|].
  split; [vm_compute; reflexivity|]. gives_tac.
Qed.

(** arithmetic, negation and lists of literals; what cannot be computed is false *)
Example C103_arithmetic_ex : let s := b_of "$[?(@.a * 2 - 1 > -$[0].a / 2 && @.b in [null, 'x', 3])].a" in
  let row a b := VObj [(b_of "a", a); (b_of "b", b)] in
  let root := VArr [row (VInt64 3) VNil; row (VInt64 0) (VInt64 3); row (VFloat (nearest (-1))) (VInt64 3);
    row (VStr (b_of "7")) VNil; row (VInt64 5) (VInt64 4); VObj [(b_of "a", VInt64 6)]] in
  ~ calls_keys (steps_of s) /\ slices_only_arrays x_world (eqVal x_world) (mapKey x_world) root (steps_of s) [root] = true /\
  fetch_path x_world (eqVal x_world) (mapKey x_world) root (steps_of s) [root] = OK [VInt64 3] /\ gives s root [VInt64 3].
Proof.
  cbv zeta.
  assert (P : ~ calls_keys (steps_of (b_of "$[?(@.a * 2 - 1 > -$[0].a / 2 && @.b in [null, 'x', 3])].a"))) by (apply keylessb_ok; vm_compute; reflexivity).
  split; [exact P|]. split; [vm_compute; reflexivity|]. split; [vm_compute; reflexivity|]. gives_tac.
Qed.

(** subscripts that are computed, from an integer, a text, a double (truncated) and a failure *)
Example C103_subscript_ex : let s := b_of "$.rows[?(@[$.key] > 1 && $.names[@.id - 1])].id" in
  let row k i := VObj [(b_of "k", VInt64 k); (b_of "id", i)] in
  let root := VObj [(b_of "key", VStr (b_of "k")); (b_of "names", VArr [VStr []; VStr (b_of "y")]);
    (b_of "rows", VArr [row 2 (VInt64 2); row 2 (VInt64 1); row 1 (VInt64 2); row 3 (VFloat (SFdiv 53 1024 (nearest 5) (nearest 2)));
      row 4 (VStr (b_of "2")); row 5 (VInt64 0)])] in
  ~ calls_keys (steps_of s) /\ in_order x_world (eqVal x_world) (mapKey x_world) root (steps_of s) [root] = true /\
  fetch_path x_world (eqVal x_world) (mapKey x_world) root (steps_of s) [root] =
    OK [VInt64 2; VFloat (SFdiv 53 1024 (nearest 5) (nearest 2)); VInt64 0] /\
  gives s root [VInt64 2; VFloat (SFdiv 53 1024 (nearest 5) (nearest 2)); VInt64 0].
Proof.
  cbv zeta.
  assert (P : ~ calls_keys (steps_of (b_of "$.rows[?(@[$.key] > 1 && $.names[@.id - 1])].id"))) by (apply keylessb_ok; vm_compute; reflexivity).
  split; [exact P|]. split; [vm_compute; reflexivity|]. split; [vm_compute; reflexivity|]. gives_tac.
Qed.

(** functions and arrays: the rows whose values add up, and those with a name that starts well *)
Example C103_function_ex : let s := b_of "$[?(sum(@.a) % 4 == max([@.m, 1]) || starts_with(@.n, 'ab') && !contains(@.a, 7) || length(@.n) > 4 && avg(@.a))].n" in
  let row a m n := VObj [(b_of "a", VArr (map VInt64 a)); (b_of "m", VInt64 m); (b_of "n", VStr (b_of n))] in
  let root := VArr [row [1; 2] 3 "p"; row [1; 2] 4 "abq"; row [7] 4 "abr"; row [5] 0 "s"; row [] 8 "long name"; row [2; 4] 5 "other"]%string in
  ~ calls_keys (steps_of s) /\ in_order x_world (eqVal x_world) (mapKey x_world) root (steps_of s) [root] = true /\
  fetch_path x_world (eqVal x_world) (mapKey x_world) root (steps_of s) [root] =
    OK (map (fun n => VStr (b_of n)) ["p"; "abq"; "s"; "other"]%string) /\
  gives s root (map (fun n => VStr (b_of n)) ["p"; "abq"; "s"; "other"]%string).
Proof.
  cbv zeta.
  assert (P : ~ calls_keys (steps_of (b_of "$[?(sum(@.a) % 4 == max([@.m, 1]) || starts_with(@.n, 'ab') && !contains(@.a, 7) || length(@.n) > 4 && avg(@.a))].n"))) by (apply keylessb_ok; vm_compute; reflexivity).
  split; [exact P|]. split; [vm_compute; reflexivity|]. split; [vm_compute; reflexivity|]. gives_tac.
Qed.

(** patterns, and arrays from the document *)
Example C103_match_ex : let s := b_of "$[?(@.a =~ 'x' || @.b in @.a || max(1, @.b, 3) nin [3])].b" in
  let row a b := VObj [(b_of "a", a); (b_of "b", VInt64 b)] in let text t := VStr (b_of t) in
  let root := VArr [row (text "x"%string) 1; row (text "x"%string) 7] in
  ~ calls_keys (steps_of s) /\ in_order x_world (eqVal x_world) (mapKey x_world) root (steps_of s) [root] = true /\
  fetch_path x_world (eqVal x_world) (mapKey x_world) root (steps_of s) [root] = Fail (RInRight false (text "x"%string)) /\
  accepted x_text s (steps_of s) (jp_of s) /\ fits (jp_of s) /\ doc root /\
  JP_Eval x_world 0 (jp_of s) root (Fail (RInRight false (text "x"%string))) /\
  (let s := b_of "$[?(@.a =~ 'x')].b" in gives s root [VInt64 1; VInt64 7] /\
    fetch_path x_world (eqVal x_world) (mapKey x_world) root (steps_of s) [root] = OK [VInt64 1; VInt64 7]) /\
  (let s := b_of "$[?(@.b in $[1].c || max(1, @.b, 3) nin [3])].b" in
    let root := VArr [row VNil 4; VObj [(b_of "b", VInt64 2); (b_of "c", VArr [VInt64 2; VInt64 3])]; row VNil 1] in
    gives s root [VInt64 4; VInt64 2] /\ fetch_path x_world (eqVal x_world) (mapKey x_world) root (steps_of s) [root] = OK [VInt64 4; VInt64 2]) /\
  (let s := b_of "$[?(tokenize(@.a, 'x')[0] == 'x' && @.b != b)].b" in
    gives s root [VInt64 1; VInt64 7] /\ fetch_path x_world (eqVal x_world) (mapKey x_world) root (steps_of s) [root] = OK [VInt64 1; VInt64 7]) /\
  (let s := b_of "$[(nosuch(1, contains(2)))]" in
    fetch_path x_world (eqVal x_world) (mapKey x_world) root (steps_of s) [root] = Fail (RArgCount (b_of "contains") 2 1) /\
    JP_Eval x_world 0 (jp_of s) root (Fail (RArgCount (b_of "contains") 2 1))).
Proof.
  cbv zeta.
  assert (P : ~ calls_keys (steps_of (b_of "$[?(@.a =~ 'x' || @.b in @.a || max(1, @.b, 3) nin [3])].b"))) by (apply keylessb_ok; vm_compute; reflexivity).
  split; [exact P|]. split; [vm_compute; reflexivity|]. split; [vm_compute; reflexivity|]. split; [apply acceptedb_ok; vm_compute; reflexivity|].
  split; [vm_compute; reflexivity|]. split; [apply docb_doc; vm_compute; reflexivity|]. split; [eval_it|].
  do 3 (split; [split; [gives_tac|vm_compute; reflexivity]|]).
  split; [vm_compute; reflexivity|eval_it].
Qed.

(** the last elements of the arrays of a document, and what a number names in an object; without
    .., @ is null in a script *)
Example C103_script_ex : let s1 := b_of "$..[(@.length-1)]" in let s2 := b_of "$.(1+1)" in let s3 := b_of "$.a[(@.length-1)]" in let s4 := b_of "$.a[($.a.length-1)]" in
  let root := VObj [(b_of "2", VInt64 9); (b_of "a", VArr [VInt64 4; VArr [VInt64 5; VInt64 6]])] in
  ~ calls_keys (steps_of s1 ++ steps_of s2 ++ steps_of s3 ++ steps_of s4) /\
  gives s1 root [VArr [VInt64 5; VInt64 6]; VInt64 6] /\ gives s2 root [VInt64 9] /\ gives s3 root [] /\ gives s4 root [VArr [VInt64 5; VInt64 6]] /\
  fetch_path x_world (eqVal x_world) (mapKey x_world) root (steps_of s1) [root] = OK [VArr [VInt64 5; VInt64 6]; VInt64 6].
Proof.
  cbv zeta.
  assert (P : ~ calls_keys ((steps_of (b_of "$..[(@.length-1)]") ++ steps_of (b_of "$.(1+1)") ++ steps_of (b_of "$.a[(@.length-1)]") ++ steps_of (b_of "$.a[($.a.length-1)]")))) by (apply keylessb_ok; vm_compute; reflexivity).
  split; [exact P|]. split; [gives_tac|]. split; [gives_tac|]. split; [gives_tac|]. split; [gives_tac|]. vm_compute. reflexivity.
Qed.

(** a store of books, which are objects of several members: they are selected in order *)
Example C103_order_ex : let s := b_of "$.store.book[?(@.price < 10)].title" in
  let book n t := VObj [(b_of "price", VInt64 n); (b_of "title", VStr (b_of t))] in
  let root := VObj [(b_of "limit", VInt64 10); (b_of "store", VObj [(b_of "book", VArr [book 8 "A"; book 12 "B"; book 9 "C"])])]%string in
  ~ calls_keys (steps_of s) /\ in_order x_world (eqVal x_world) (mapKey x_world) root (steps_of s) [root] = true /\
  ~ lone_members root /\ gives s root [VStr (b_of "A"); VStr (b_of "C")].
Proof.
  cbv zeta.
  assert (P : ~ calls_keys (steps_of (b_of "$.store.book[?(@.price < 10)].title"))) by (apply keylessb_ok; vm_compute; reflexivity).
  split; [exact P|]. split; [vm_compute; reflexivity|]. split; [intro H; specialize (H _ (WSelf _)); cbn in H; lia|]. gives_tac.
Qed.

(** ** C104 *)
(** For all paths without keys(): if none of the objects a step lists, by *, by a filter or by ..,
    has two members, every order of iteration over maps gives the same values in the same order,
    or the same error. *)
Theorem C104_listed : forall TX s ss jp W perm t t' root r r', accepted TX s ss jp -> fits jp -> orders_ok W ->
  orders_ok (reordered W perm) -> doc root -> ~ calls_keys ss -> orderly W root ss [root] ->
  JP_Eval W t jp root r -> JP_Eval (reordered W perm) t' jp root r' -> r = r'.
Proof. exact text_listed. Qed.
Print Assumptions C104_listed.

(** And this matters: if the path ends in * and an object with two different members is listed,
    there are orders of iteration that give different lists. *)
Theorem C104_wild : forall TX s ss jp W t root cands m k k' v v', accepted TX s (ss ++ [mkStep OpWild []]) jp -> fits jp -> orders_ok W -> doc root ->
  path_means W root ss [root] (OK cands) -> In (VObj m) cands -> In (k, v) m -> In (k', v') m -> v <> v' ->
  exists perm perm' l l', orders_ok (reordered W perm) /\ orders_ok (reordered W perm') /\
    JP_Eval (reordered W perm) t jp root (OK l) /\ JP_Eval (reordered W perm') t jp root (OK l') /\ l <> l'.
Proof. exact text_wild. Qed.
Print Assumptions C104_wild.

(** a filter and a slice: the rows and columns come in order, although the rows have two members *)
Example C104_ex : let s := b_of "$.a[?(@.x)].y[::-1]" in
  let row x y := VObj [(b_of "x", VInt64 x); (b_of "y", VArr y)] in
  let root := VObj [(b_of "a", VArr [row 1 [VInt64 1; VInt64 2]; row 0 [VInt64 3]; row 2 [VInt64 4; VInt64 5]]); (b_of "b", VInt64 6)] in
  orders_ok x_world /\ orders_ok (reordered x_world backwards) /\ ~ calls_keys (steps_of s) /\ orderly x_world root (steps_of s) [root] /\
  ~ lone_members root /\ gives s root [VInt64 2; VInt64 1; VInt64 5; VInt64 4].
Proof.
  cbv zeta. split; [exact x_world_ok|]. split; [apply backwards_ok|].
  assert (A : accepted x_text (b_of "$.a[?(@.x)].y[::-1]") (steps_of (b_of "$.a[?(@.x)].y[::-1]")) (jp_of (b_of "$.a[?(@.x)].y[::-1]"))) by (apply acceptedb_ok; vm_compute; reflexivity).
  assert (N : ~ calls_keys (steps_of (b_of "$.a[?(@.x)].y[::-1]"))) by (apply keylessb_ok; vm_compute; reflexivity).
  assert (P : Forall (FetchProofs.plain_step False) (steps_of (b_of "$.a[?(@.x)].y[::-1]"))) by (eapply ordinary_plain; [exact A|vm_compute; reflexivity|exact N]).
  assert (Hw : wf_path (steps_of (b_of "$.a[?(@.x)].y[::-1]"))).
  { eapply TextProofs.text_wf. exact A. }
  split; [exact N|]. split; [|split; [intro H; specialize (H _ (WSelf _)); cbn in H; lia|gives_tac]].
  apply (in_order_ok x_world x_world_ok x_splits_ok (eqVal x_world) (eq_loose x_world) (mapKey x_world) (mapKey_only x_world));
    [apply docb_doc; vm_compute; reflexivity|exact Hw|exact P|constructor; [apply docb_doc; vm_compute; reflexivity|constructor]|vm_compute; reflexivity].
Qed.

Example C104_wild_ex : let s := b_of "$.a[0].*" in let ss := [mkStep OpMember [PName (b_of "a")]; mkStep OpSelect [PInt 0]] in
  let o := [(b_of "x", VInt64 1); (b_of "y", VInt64 2)] in let root := VObj [(b_of "a", VArr [VObj o])] in
  accepted x_text s (ss ++ [mkStep OpWild []]) (jp_of s) /\ fits (jp_of s) /\ doc root /\ path_means x_world root ss [root] (OK [VObj o]) /\
  In (b_of "x", VInt64 1) o /\ In (b_of "y", VInt64 2) o /\ VInt64 1 <> VInt64 2.
Proof.
  cbv zeta. split; [exact (acceptedb_ok (b_of "$.a[0].*") ltac:(vm_compute; reflexivity))|]. split; [vm_compute; reflexivity|].
  assert (D : doc (VObj [(b_of "a", VArr [VObj [(b_of "x", VInt64 1); (b_of "y", VInt64 2)]])])) by (apply docb_doc; vm_compute; reflexivity).
  split; [exact D|]. split; [|split; [left; reflexivity|split; [right; left; reflexivity|discriminate]]].
  set (root := VObj [(b_of "a", VArr [VObj [(b_of "x", VInt64 1); (b_of "y", VInt64 2)]])]) in *.
  set (ss := [mkStep OpMember [PName (b_of "a")]; mkStep OpSelect [PInt 0]]).
  assert (Hw : wf_path ss) by (repeat constructor; discriminate).
  exact (TakeProofs.path_taken x_world root ss [root] Hw ltac:(repeat constructor) ltac:(constructor; [exact D|constructor])).
Qed.
