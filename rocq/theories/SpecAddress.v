(** Addresses: the text that names one place in a document, step by step. *)
From Verif Require Import Base Syntax SpecPrint SpecSelect SpecDoc Value.
Local Open Scope Z_scope.

(** ['k'], with the string escaped, or [i] *)
Definition key_text (k : key) : bytes :=
  match k with
  | AtIndex i => digits (Z.of_nat i)
  | AtName s => print_str 39 s
  end.
Definition address (p : list key) : bytes := 36 :: flat_map (fun k => 91 :: key_text k ++ [93]) p.

(** a place that can be written: indices fit an int, names are bytes *)
Definition nameable (k : key) : Prop :=
  match k with
  | AtIndex i => Z.of_nat i <= max_int64
  | AtName s => is_bytes s
  end.

(** An index applied to an object is the name that is its decimal, so that the text of a
    place may also be read as that of another. *)
Definition alias (k k' : key) : Prop := k' = k \/ exists i, k = AtIndex i /\ k' = AtName (decimal (Z.of_nat i)).

(** the names of members are bytes *)
Definition byte_names (root : val) : Prop :=
  forall m k x, within (VObj m) root -> In (k, x) m -> is_bytes k.
