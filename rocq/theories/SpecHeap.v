(** What evaluations that share storage may touch. *)
From Verif Require Import SpecDoc SpecRun SpecText Api Heap.
Local Open Scope Z_scope.

(** the slices and values a goroutine of a producer still has *)
Inductive frame_has : hframe -> hval -> Prop :=
| FhEach : forall s i ts, frame_has (GEach s i ts) (HArr s)
| FhEachM : forall a ks ts, frame_has (GEachM a ks ts) (HMap a)
| FhBody : forall t v, frame_has (GBody t v) v
| FhStep : forall t s i, frame_has (GStep t s i) (HArr s)
| FhSend : forall s i, frame_has (GSend s i) (HArr s)
| FhSendM : forall a ks, frame_has (GSendM a ks) (HMap a).
Inductive prod_has : hprod -> hval -> Prop :=
| PhRun : forall k f x, In f k -> frame_has f x -> prod_has (GRun k) x
| PhPut : forall v k f x, In f k -> frame_has f x -> prod_has (GPut v k) x
| PhValue : forall v k, prod_has (GPut v k) v.

(** What an evaluation has got apart from the three arrays of its own: the document, the current
    value, the elements of its arrays, what its goroutines have, and its result. *)
Inductive has (h : heap) (e : evaluation) : hval -> Prop :=
| HsRoot : has h e (e_root e)
| HsDot : (forall r, g_mode (e_st e) <> GoDone r) -> has h e (h_dot (g_m (e_st e)))
| HsElem : forall s l x, (forall r, g_mode (e_st e) <> GoDone r) ->
    (h_out (g_m (e_st e)) = Some s \/ h_stk (g_m (e_st e)) = Some s) -> cells h s = Some l -> In x l -> has h e x
| HsProd : forall q x, In q (g_prods (e_st e)) -> prod_has q x -> has h e x
| HsResult : forall s, g_mode (e_st e) = GoDone (ROk s) -> has h e (HArr s).

(** evaluation [j] has returned [r] *)
Definition returned (y : sys) (j : nat) (r : hresult) : Prop :=
  exists e, nth_error (y_evals y) j = Some e /\ g_mode (e_st e) = GoDone r.

(** evaluation [j] of the compiled path [jp], as it was called *)
Definition called (y : sys) (j : nat) (W : world) (t : nat) (jp : JSONPath) (root : hval) (v : val) : Prop :=
  exists e, nth_error (y_evals y) j = Some e /\ e_world e = W /\ e_tick0 e = t /\ e_prog e = jp_prog jp /\ e_root e = root /\ e_val e = v.

(** all evaluations but [j] are as they were *)
Definition only (j : nat) (y y' : sys) : Prop := forall k, k <> j -> nth_error (y_evals y') k = nth_error (y_evals y) k.

(** a step of evaluation [j]: of its machine or of one of its producers *)
Inductive works (j : nat) : sys -> sys -> Prop :=
| WkMain : forall h es e p h' st, nth_error es j = Some e -> nth_error h (e_code e) = Some (BProg p) ->
    h_main (e_world e) p (e_root e) h (g_m (e_st e)) (g_prods (e_st e)) (g_mode (e_st e)) h' st ->
    works j (mkS h es) (mkS h' (set_nth j (with_st e st) es))
| WkProd : forall h es e i q q', nth_error es j = Some e -> nth_error (g_prods (e_st e)) i = Some q ->
    g_step (e_world e) h q q' ->
    works j (mkS h es) (mkS h (set_nth j (with_st e (mkT (g_m (e_st e)) (g_mode (e_st e)) (set_nth i q' (g_prods (e_st e))))) es)).

(** every evaluation is of a compiled path, on a document *)
Definition compiled (y : sys) : Prop := forall j e, nth_error (y_evals y) j = Some e ->
  exists TX s ss jp, accepted TX s ss jp /\ fits jp /\ e_prog e = jp_prog jp /\ orders_ok (e_world e) /\ doc (e_val e).

(** evaluation [j], and no other, took the step in which the storage at [a] came to be *)
Definition allocated_by (j a : nat) (y : sys) : Prop := exists y0 y1, reachable y0 /\ sstep y0 y1 /\ later y1 y /\
  only j y0 y1 /\ nth_error (y_evals y1) j <> nth_error (y_evals y0) j /\ (length (y_heap y0) <= a < length (y_heap y1))%nat.
