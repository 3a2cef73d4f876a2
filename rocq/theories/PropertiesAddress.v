(** Addresses (C96).  [address p] is the text that writes the place [p] key by key:
    $ followed by ['name'] or [index]. *)
From Verif Require Import Base Syntax SpecSyntax SpecGrammar SpecPrint Value Parser Api Machine SpecDoc SpecSelect SpecRun SpecText
  SpecAddress AddressProofs AddressMore Examples.
Local Open Scope Z_scope.

(** ** C96 *)
(** The text is read as the keys in order. *)
Theorem C96_reads : forall TX p, Forall nameable p ->
  ParsePath TX (address p) =
  OK (map (fun k => mkStep OpSelect [match k with AtIndex i => PInt (Z.of_nat i) | AtName s => PStr s end]) p).
Proof. exact address_reads. Qed.
Print Assumptions C96_reads.

(** Different places have different texts. *)
Theorem C96_different : forall p q, Forall nameable p -> Forall nameable q -> address p = address q -> p = q.
Proof. exact address_inj. Qed.
Print Assumptions C96_different.

(** The address of a place where there is a value selects that value and nothing else, in
    every order of visiting members. *)
Theorem C96_selects : forall TX root p x, literal_floats (o_parse_float TX) -> doc root -> byte_names root ->
  value_at root p x -> Z.of_nat (length (address p)) <= 3145728 ->
  exists jp, JP_Compile TX (address p) = OK jp /\
  forall W t r, orders_ok W -> (JP_Eval W t jp root r <-> r = OK [x]).
Proof. exact address_selects. Qed.
Print Assumptions C96_selects.

(** On any document it selects the value at the place, reading an index as a name where there
    is an object, or nothing if there is none; it never fails. *)
Theorem C96_exact : forall TX p, Forall nameable p -> literal_floats (o_parse_float TX) ->
  Z.of_nat (length (address p)) <= 3145728 ->
  exists jp, JP_Compile TX (address p) = OK jp /\
  forall W t root r, orders_ok W -> doc root ->
  (JP_Eval W t jp root r <->
   (exists x q, r = OK [x] /\ Forall2 alias p q /\ value_at root q x) \/
   (r = OK [] /\ forall q x, Forall2 alias p q -> ~ value_at root q x)).
Proof. exact address_exact. Qed.
Print Assumptions C96_exact.

(** Every value selected by a path without filters has an address that selects it alone. *)
Theorem C96_results : forall TX s ss jp, accepted TX s ss jp -> ~ has_filter ss ->
  forall W t root l v, orders_ok W -> doc root -> byte_names root -> JP_Eval W t jp root (OK l) -> In v l ->
  exists p, value_at root p v /\
  (Z.of_nat (length (address p)) <= 3145728 ->
   exists jp', JP_Compile TX (address p) = OK jp' /\ forall W' t', orders_ok W' -> JP_Eval W' t' jp' root (OK [v])).
Proof. exact result_address. Qed.
Print Assumptions C96_results.

(** With an index in it, the text of a place where there is nothing may still select. *)
Theorem C96_index_refuted : exists p root x, Forall nameable p /\ doc root /\ byte_names root /\
  (forall y, ~ value_at root p y) /\
  forall TX, literal_floats (o_parse_float TX) ->
  exists jp, JP_Compile TX (address p) = OK jp /\ forall W t, orders_ok W -> JP_Eval W t jp root (OK [x]).
Proof. exact index_names. Qed.
Print Assumptions C96_index_refuted.

(** the place of the value 2 in {"a'b": [1, {"": 2}]} *)
Definition x_place : list key := [AtName (b_of "a'b"); AtIndex 1; AtName []].
Definition x_root : val := VObj [(b_of "a'b", VArr [VInt64 1; VObj [([], VInt64 2)]])].
Example C96_ex :
  address x_place = b_of "$['a\'b'][1]['']" /\ Forall nameable x_place /\ doc x_root /\ byte_names x_root /\
  value_at x_root x_place (VInt64 2) /\ literal_floats (o_parse_float x_text) /\
  JP_Eval x_world 0 (jp_of (address x_place)) x_root (OK [VInt64 2]) /\
  JP_Eval x_world 0 (jp_of (address [AtName (b_of "a'b"); AtIndex 2])) x_root (OK []).
Proof.
  split; [reflexivity|]. split.
  { constructor; [|constructor; [discriminate|constructor; constructor]].
    apply bytesb_ok. reflexivity. }
  split; [apply docb_doc; reflexivity|]. split; [apply x_names|].
  split; [|split; [apply x_floats|split; (split; [discriminate|]; exists 400%nat; vm_compute; reflexivity)]].
  eapply VaMember; [left; reflexivity|]. eapply VaElem; [reflexivity|]. eapply VaMember; [left; reflexivity|constructor].
Qed.
