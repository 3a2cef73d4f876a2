(** What the selectors of a path select.  A specification: it uses documents and
    syntax trees, and none of the machine's functions. *)
From Coq Require Import Permutation DecimalString.
From Verif Require Import Syntax Value SpecDoc.
Local Open Scope Z_scope.

(** ** Selectors *)

(** A selector: a member name; an array index, which may or may not count from the end
    when negative; a slice with optional start, end and stride. *)
Inductive sel : Type :=
| SName (k : bytes)
| SIndex (count_back : bool) (n : Z)
| SSlice (a b c : option Z).

(** the decimal form of an integer *)
Definition decimal (n : Z) : bytes := b_of (NilZero.string_of_int (Z.to_int n)).

(** ** Slices *)

(** a position, counted from the end if negative *)
Definition from_end (len x : Z) : Z := if x <? 0 then x + len else x.
Definition clip (lo hi x : Z) : Z := Z.max lo (Z.min hi x).
Definition or_default (d : Z) (x : option Z) : Z := match x with Some z => z | None => d end.

(** from, from+c, from+2c, ... ([n] numbers) *)
Definition progression (from c : Z) (n : nat) : list Z :=
  map (fun k => from + Z.of_nat k * c) (seq 0 n).

(** the positions [a:b:c] selects in an array of [len] elements *)
Inductive slice_positions (len : Z) (a b c : option Z) : list Z -> Prop :=
| SlUp : forall s n, s = or_default 1 c -> 0 < s ->
    let from := clip 0 len (from_end len (or_default 0 a)) in
    let to := clip 0 len (from_end len (or_default len b)) in
    (forall k, (k < n)%nat <-> from + Z.of_nat k * s < to) ->
    slice_positions len a b c (progression from s n)
| SlDown : forall s n, s = or_default 1 c -> s < 0 ->
    let from := clip (-1) (len - 1) (from_end len (or_default (len - 1) a)) in
    let to := match b with None => -1 | Some e => clip (-1) (len - 1) (from_end len e) end in
    (forall k, (k < n)%nat <-> from + Z.of_nat k * s > to) ->
    slice_positions len a b c (progression from s n)
| SlZero : c = Some 0 -> slice_positions len a b c [].

(** the stride cannot be added to the last position without leaving the int64 range *)
Definition overflowing (len : Z) (a b c : option Z) : Prop :=
  exists ps i, slice_positions len a b c (ps ++ [i]) /\ i + or_default 1 c > max_int64.

Definition elem (l : list val) (i : Z) (x : val) : Prop :=
  0 <= i /\ nth_error l (Z.to_nat i) = Some x.

(** ** What a selector selects from one candidate *)

Inductive picks_name (k : bytes) : val -> list val -> Prop :=
| PnMember : forall m x, In (k, x) m -> picks_name k (VObj m) [x]
| PnMissing : forall m, ~ In k (map fst m) -> picks_name k (VObj m) []
| PnOther : forall v, IsObject v = false -> picks_name k v [].

Inductive picks : sel -> val -> list val -> Prop :=
| PkName : forall k v l, picks_name k v l -> picks (SName k) v l
| PkElem : forall back n i l x, i = n \/ (back = true /\ n < 0 /\ i = n + Z.of_nat (length l)) ->
    elem l i x -> picks (SIndex back n) (VArr l) [x]
| PkRange : forall back n l, (Z.of_nat (length l) <= n \/ n < 0 /\ (back = true -> n + Z.of_nat (length l) < 0)) ->
    picks (SIndex back n) (VArr l) []
| PkNumber : forall back n v l, IsArray v = false -> picks_name (decimal n) v l ->
    picks (SIndex back n) v l
| PkSlice : forall a b c l ps xs, slice_positions (Z.of_nat (length l)) a b c ps ->
    Forall2 (elem l) ps xs -> picks (SSlice a b c) (VArr l) xs
| PkSliceOther : forall a b c v, IsArray v = false -> picks (SSlice a b c) v [].

(** the selection from several candidates, each treated alone *)
Definition gathers (pick : val -> list val -> Prop) (cands r : list val) : Prop :=
  exists ls, Forall2 pick cands ls /\ r = concat ls.

(** what several selectors pick from one candidate, in order *)
Definition picks_all (sels : list sel) (v : val) (l : list val) : Prop :=
  exists ls, Forall2 (fun s l => picks s v l) sels ls /\ l = concat ls.

(** ** Steps *)

(** steps whose arguments are selectors; indices count from the end in subscripts, but not
    after a dot *)
Definition is_select (o : op) : bool :=
  match o with OpMember | OpSelect | OpUnion => true | _ => false end.
Definition is_nest_select (o : op) : bool :=
  match o with OpNestMember | OpNestSelect | OpNestUnion => true | _ => false end.
Definition counts_back (o : op) : bool :=
  match o with OpMember | OpNestMember => false | _ => true end.

Definition is_slice (s : sel) : bool := match s with SSlice _ _ _ => true | _ => false end.

Inductive bound_is : option bound -> option Z -> Prop :=
| BiNone : bound_is None None
| BiInt : forall z, bound_is (Some (BInt z)) (Some z).

(** [selector back a s]: the argument [a] of a step is the selector [s]; indices
    count from the end in subscripts ([back]) but not after a dot *)
Inductive selector (back : bool) : pval -> sel -> Prop :=
| SelName : forall k, selector back (PName k) (SName k)
| SelStr : forall k, selector back (PStr k) (SName k)
| SelInt : forall n, selector back (PInt n) (SIndex back n)
| SelSlice : forall sl a b c, bound_is (sl_start sl) a -> bound_is (sl_end sl) b ->
    bound_is (sl_stride sl) c -> selector back (PSlice sl) (SSlice a b c).

(** member values in some order *)
Inductive children_in_order : val -> list val -> Prop :=
| CiArr : forall l, children_in_order (VArr l) l
| CiObj : forall m m', Permutation m m' -> children_in_order (VObj m) (map snd m')
| CiOther : forall v, IsStructure v = false -> children_in_order v [].

(** the containers in a value (itself included), parents first, the members of each
    object in some order *)
Inductive walks : val -> list val -> Prop :=
| WkArr : forall l ls, Forall2 walks l ls -> walks (VArr l) (VArr l :: concat ls)
| WkObj : forall m m' ls, Permutation m m' -> Forall2 walks (map snd m') ls ->
    walks (VObj m) (VObj m :: concat ls)
| WkOther : forall v, IsStructure v = false -> walks v [].

(** ** Selectors applied to candidates in sequence *)

(** the applications of a list of selectors to a list of candidates, in order *)
Definition applications (sels : list sel) (cands : list val) : list (sel * val) :=
  flat_map (fun v => map (fun s => (s, v)) sels) cands.

(** The application of a slice to something that is not an array.  It ought to
    contribute nothing; what the code does is to discard everything selected so far
    in this step (mach/run.go:719-721). *)
Definition discards (a : sel * val) : Prop :=
  match fst a with SSlice _ _ _ => IsArray (snd a) = false | _ => False end.

(** what a sequence of applications selects: everything selected after the last one
    that discards *)
Definition collects (apps : list (sel * val)) (r : list val) : Prop :=
  exists before after, apps = before ++ after /\
    (before = [] \/ exists b a, before = b ++ [a] /\ discards a) /\
    Forall (fun a => ~ discards a) after /\
    exists ls, Forall2 (fun a l => picks (fst a) (snd a) l) after ls /\ r = concat ls.

(** an application whose slice's stride overflows *)
Definition app_overflows (a : sel * val) : Prop :=
  match a with
  | (SSlice x y z, VArr l) => overflowing (Z.of_nat (length l)) x y z
  | _ => False
  end.

(** ** Places in a document *)

Inductive key : Type := AtIndex (i : nat) | AtName (k : bytes).

(** [value_at v a x]: [x] is what is found in [v] by following the indices and member
    names in [a] *)
Inductive value_at : val -> list key -> val -> Prop :=
| VaHere : forall v, value_at v [] v
| VaElem : forall l i e a x, nth_error l i = Some e -> value_at e a x -> value_at (VArr l) (AtIndex i :: a) x
| VaMember : forall m k e a x, In (k, e) m -> value_at e a x -> value_at (VObj m) (AtName k :: a) x.

(** [a] comes before [b] in the list, if both are in it *)
Definition comes_first {A} (l : list A) (a b : A) : Prop :=
  forall i j, nth_error l i = Some a -> nth_error l j = Some b -> (i < j)%nat.

(** [visits_containers v dots]: [dots] are the arrays and objects in [v], the one at each
    place once, each before those inside it and the elements of arrays from left to right *)
Definition visits_containers (v : val) (dots : list val) : Prop :=
  exists places, NoDup places /\
    Forall2 (fun a d => value_at v a d /\ IsStructure d = true) places dots /\
    (forall a d, value_at v a d -> IsStructure d = true -> In a places) /\
    (forall a b, b <> [] -> comes_first places a (a ++ b)) /\
    (forall a i j b c, (i < j)%nat -> comes_first places (a ++ AtIndex i :: b) (a ++ AtIndex j :: c)).
