(** Schedules: what the producers send, what the machine receives, and when a goroutine is
    left over. *)
From Verif Require Import Conc SpecSelect.
Local Open Scope Z_scope.

(** [sends W q l q2]: on its way from [q] to [q2] a producer sends the values [l] *)
Inductive sends (W : world) : producer -> list val -> producer -> Prop :=
| SnNone : forall q, sends W q [] q
| SnOwn : forall q q1 l q2, prod_step W q = Some q1 -> sends W q1 l q2 -> sends W q l q2
| SnValue : forall v k l q2, sends W (PRun k) l q2 -> sends W (PSend v k) (v :: l) q2.

(** what the next step of the machine receives, and from which producer; nothing if the
    channel is closed *)
Definition received_now (c : cstate) : list (nat * option val) :=
  match c_mode c, c_chans c with
  | CFirst, i :: _ | CRep _, i :: _ =>
    match nth_error (c_prods c) i with
    | Some (PSend v _) => [(i, Some v)]
    | Some PClosed => [(i, None)]
    | _ => []
    end
  | _, _ => []
  end.

(** [observed W p root t c log]: some schedule leads to [c], and on the way the machine
    receives [log] *)
Inductive observed (W : world) (p : program) (root : val) (t : nat) : cstate -> list (nat * option val) -> Prop :=
| ObInit : observed W p root t (c_init t root) []
| ObProd : forall c log i q q', observed W p root t c log ->
    nth_error (c_prods c) i = Some q -> prod_step W q = Some q' ->
    observed W p root t (mkC (c_m c) (c_chans c) (c_mode c) (set_nth i q' (c_prods c))) log
| ObMain : forall c log c', observed W p root t c log -> main_step W p root c = Some c' ->
    observed W p root t c' (log ++ received_now c).

(** what was received from producer [i] *)
Definition from (i : nat) (log : list (nat * option val)) : list (option val) :=
  map snd (filter (fun e => (fst e =? i)%nat) log).

(** what a loop started by the order [o] iterates over for one candidate *)
Definition iterates_over (o : op) : val -> list val -> Prop :=
  match o with OpFor => children_in_order | _ => walks end.

(** later states of the same schedule *)
Inductive leads (W : world) (p : program) (root : val) : cstate -> cstate -> Prop :=
| LdHere : forall c, leads W p root c c
| LdStep : forall c c1 c2, cstep W p root c c1 -> leads W p root c1 c2 -> leads W p root c c2.

(** producer [i] has ended *)
Definition ended (c : cstate) (i : nat) : Prop := nth_error (c_prods c) i = Some PClosed.

(** producer [i] will never end, however the evaluation continues *)
Definition left_over (W : world) (p : program) (root : val) (c : cstate) (i : nat) : Prop :=
  (i < length (c_prods c))%nat /\ forall c', leads W p root c c' -> ~ ended c' i.
