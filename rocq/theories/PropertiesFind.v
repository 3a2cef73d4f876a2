(** A reference evaluator (C100) and other names for members (C101). *)
From Coq Require Import Permutation.
From Verif Require Import Base Syntax SpecSyntax Value Machine Parser Api SpecDoc SpecSelect SpecRun SpecText SpecSem SpecLaws SpecOnce SpecFind SpecRename
  FindProofs RenameProofs RenameMore OnceMore Examples.
Local Open Scope Z_scope.

(** ** C100 *)
(** For paths of names, strings, integers and *, with unions and .. anywhere, the machine gives
    what the short evaluator [find_path] gives, in some order, and if no object has two members,
    in the same order. *)
Theorem C100_reference : forall TX s ss jp W t root r, accepted TX s ss jp -> fits jp -> orders_ok W -> doc root ->
  Forall (fun st => Forall literal_key (st_args st)) ss -> JP_Eval W t jp root r ->
  exists l, r = OK l /\ Permutation l (find_path ss root) /\ (lone_members root -> l = find_path ss root).
Proof. exact text_found. Qed.
Print Assumptions C100_reference.

(** two .., so that places are selected repeatedly; and a document in which the order is known *)
Example C100_ex : let s := b_of "$..[-1,'a']..*" in
  let root := VObj [(b_of "a", VArr [VInt64 1; VArr [VInt64 2; VArr [VInt64 3]]]); (b_of "b", VArr [VInt64 4])] in
  let root' := VArr [VInt64 1; VObj [(b_of "a", VArr [VInt64 2; VArr [VInt64 3]])]] in
  Forall (fun st => Forall literal_key (st_args st)) (steps_of s) /\
  (exists l, gives s root l /\ length l = 9%nat) /\ lone_members root' /\
  gives s root' [VArr [VInt64 2; VArr [VInt64 3]]; VInt64 2; VArr [VInt64 3]; VInt64 3; VInt64 2; VArr [VInt64 3]; VInt64 3; VInt64 3].
Proof.
  cbv zeta. split; [vm_compute; repeat constructor|]. split; [eexists; split; [gives_tac|vm_compute; reflexivity]|].
  split; [unfold lone_members; apply loneb_ok; vm_compute; reflexivity|]. gives_tac.
Qed.

(** ** C101 *)
(** Giving the members of a document other names, different ones to different members, and the
    same to the names in a path, gives the results under their other names; those members that
    the integers of the path may name have to keep theirs. *)
Theorem C101_renamed : forall TX s ss jp s' jp' W W' t t' f root r r', accepted TX s ss jp -> fits jp ->
  accepted TX s' (map (rename_step f) ss) jp' -> fits jp' -> orders_ok W -> orders_ok W' -> doc root -> doc (renamed f root) ->
  Forall (fun st => Forall literal_key (st_args st)) ss -> names_anew f ss ->
  JP_Eval W t jp root r -> JP_Eval W' t' jp' (renamed f root) r' ->
  exists l l', r = OK l /\ r' = OK l' /\ Permutation (map (renamed f) l) l' /\ (lone_members root -> l' = map (renamed f) l).
Proof. exact text_renamed. Qed.
Print Assumptions C101_renamed.

(** every name is given another first letter *)
Example C101_ex : let s := b_of "$..['a','b'].*" in let f := fun k => 122 :: k in
  let s2 := b_of "$..['za','zb'].*" in
  let root := VObj [(b_of "b", VArr [VInt64 1; VObj [(b_of "a", VArr [VInt64 2])]])] in
  steps_of s2 = map (rename_step f) (steps_of s) /\ names_anew f (steps_of s) /\ doc (renamed f root) /\
  gives s root [VInt64 1; VObj [(b_of "a", VArr [VInt64 2])]; VInt64 2] /\
  gives s2 (renamed f root) [VInt64 1; VObj [(b_of "za", VArr [VInt64 2])]; VInt64 2].
Proof.
  cbv zeta. split; [vm_compute; reflexivity|]. split.
  { split; [intros a b E; injection E as E; exact E|]. intros st n Hs Hn. vm_compute in Hs.
    destruct Hs as [<-|[<-|[]]]; cbn in Hn; repeat (destruct Hn as [Hn|Hn]; [discriminate Hn|]); destruct Hn. }
  split; [apply docb_doc; vm_compute; reflexivity|]. split; gives_tac.
Qed.

(** Without the condition on integers it is false: $[0] selects the member "0". *)
Theorem C101_integers_refuted : exists s f root l, (forall a b, f a = f b -> a = b) /\
  map (rename_step f) (steps_of s) = steps_of s /\ gives s root l /\ l <> [] /\ gives s (renamed f root) [].
Proof. exact zero_named. Qed.
Print Assumptions C101_integers_refuted.
