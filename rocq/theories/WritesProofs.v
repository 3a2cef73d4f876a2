(** Proofs about the writes to jpath's standard output. *)
From Verif Require Import SpecWrites Examples CliProofs.
Local Open Scope Z_scope.

Definition okw (Out : os_write) (log : list (bytes * option (nat * bytes))) : Prop :=
  forall l b r l', log = l ++ (b, r) :: l' -> r = Out (length l) b /\ r = None /\ 4096 <= Z.of_nat (length b).

(** [s] has been passed to Write, and no write has failed *)
Definition good0 (Out : os_write) (w : writer) (s : bytes) : Prop :=
  wr_err w = None /\ okw Out (wr_log w) /\ s = attempted (wr_log w) ++ wr_buf w /\ Z.of_nat (length (wr_buf w)) <= 4096.

(** [s] has been passed to Write, and the last write failed *)
Definition bad0 (Out : os_write) (w : writer) (s msg : bytes) : Prop :=
  wr_err w = Some msg /\ (exists l b n, wr_log w = l ++ [(b, Some (n, msg))] /\ okw Out l /\ b <> [] /\ Some (n, msg) = Out (length l) b) /\
  (exists rest, s = attempted (wr_log w) ++ rest).

Lemma attempted_app : forall a b, attempted (a ++ b) = attempted a ++ attempted b.
Proof. intros. apply flat_map_app. Qed.

Lemma last_split {A} : forall (l : list A) a x y z, l ++ [a] = x ++ y :: z -> (z = [] /\ l = x /\ a = y) \/ exists z', z = z' ++ [a] /\ l = x ++ y :: z'.
Proof.
  intros l a x y z E. destruct (exists_last (l := y :: z)) as [q [b Eq]]; [discriminate|].
  rewrite Eq, app_assoc in E. apply app_inj_tail in E. destruct E as [-> <-].
  destruct q as [|y' q]; cbn in Eq; injection Eq as -> Eq.
  - left. rewrite app_nil_r. auto.
  - right. exists q. auto.
Qed.

Lemma okw_snoc : forall Out l b, okw Out l -> Out (length l) b = None -> 4096 <= Z.of_nat (length b) -> okw Out (l ++ [(b, None)]).
Proof.
  intros Out l b H E K x c r y Hx. apply last_split in Hx. destruct Hx as [(-> & -> & [= <- <-])|(z & -> & ->)].
  - auto.
  - eapply H. reflexivity.
Qed.

Lemma emit_cases : forall Out w b rest, wr_err w = None -> okw Out (wr_log w) -> 4096 <= Z.of_nat (length b) ->
  (good0 Out (emit Out w b) (attempted (wr_log w) ++ b) /\ wr_buf (emit Out w b) = []) \/
  exists msg, bad0 Out (emit Out w b) (attempted (wr_log w) ++ b ++ rest) msg.
Proof.
  intros Out w b rest E H K. unfold emit. destruct (Out (length (wr_log w)) b) as [[n msg]|] eqn:R.
  - right. exists msg. split; [reflexivity|]. cbn [wr_log]. split.
    + exists (wr_log w), b, n. split; [reflexivity|]. split; [exact H|]. split; [|symmetry; exact R]. intro. subst b. cbn in K. lia.
    + exists rest. rewrite attempted_app. cbn. rewrite app_nil_r, app_assoc. reflexivity.
  - left. split; [|reflexivity]. split; [reflexivity|]. cbn [wr_log wr_buf]. split; [apply okw_snoc; assumption|].
    split; [|cbn; lia]. rewrite attempted_app. cbn. rewrite !app_nil_r. reflexivity.
Qed.

Lemma write_cases0 : forall Out w s p, good0 Out w s -> good0 Out (write Out w p) (s ++ p) \/ exists msg, bad0 Out (write Out w p) (s ++ p) msg.
Proof.
  intros Out w s p (He & Hl & -> & Hb). unfold write. rewrite He. unfold bufsize.
  destruct (Z.leb_spec (Z.of_nat (length p)) (4096 - Z.of_nat (length (wr_buf w)))) as [A|A].
  - left. split; [reflexivity|]. split; [exact Hl|]. cbn [wr_log wr_buf]. split; [symmetry; apply app_assoc|]. rewrite app_length. lia.
  - destruct (wr_buf w) as [|c b'] eqn:B.
    + rewrite app_nil_r. destruct (emit_cases Out w p [] He Hl) as [[K _]|[msg K]]; [cbn in A; lia|left; exact K|right; exists msg; rewrite app_nil_r in K; exact K].
    + set (b := c :: b') in *. set (n := Z.to_nat (4096 - Z.of_nat (length b))).
      assert (Ln : length (firstn n p) = n) by (apply firstn_length_le; unfold n; lia).
      assert (Lb : Z.of_nat (length (b ++ firstn n p)) = 4096) by (rewrite app_length, Ln; unfold n; lia).
      replace ((attempted (wr_log w) ++ b) ++ p) with (attempted (wr_log w) ++ (b ++ firstn n p) ++ skipn n p)
        by (rewrite <- !app_assoc, firstn_skipn; reflexivity).
      destruct (emit_cases Out w (b ++ firstn n p) (skipn n p) He Hl) as [[K K']|[msg K]]; [lia| |].
      * pose proof K as (Ke & Kl & Ks & _). rewrite K', app_nil_r in Ks. rewrite Ke.
        destruct (Z.leb_spec (Z.of_nat (length (skipn n p))) 4096) as [D|D].
        { left. split; [reflexivity|]. split; [exact Kl|]. cbn [wr_log wr_buf]. split; [rewrite <- Ks, <- !app_assoc; reflexivity|exact D]. }
        destruct (emit_cases Out (emit Out w (b ++ firstn n p)) (skipn n p) [] Ke Kl) as [[J _]|[msg J]]; [lia| |].
        { left. rewrite <- Ks, <- !app_assoc in J. rewrite <- !app_assoc. exact J. }
        { right. exists msg. rewrite app_nil_r, <- Ks, <- !app_assoc in J. rewrite <- !app_assoc. exact J. }
      * right. exists msg. pose proof K as (Ke & _). rewrite Ke. exact K.
Qed.

(** the same; if there has been a write, there was more than the buffer could hold *)
Definition good (Out : os_write) (w : writer) (s : bytes) : Prop := good0 Out w s /\ (wr_log w = [] \/ 4096 < Z.of_nat (length s)).
Definition bad (Out : os_write) (w : writer) (s msg : bytes) : Prop := bad0 Out w s msg /\ 4096 < Z.of_nat (length s).

Lemma write_cases : forall Out w s p, good Out w s -> good Out (write Out w p) (s ++ p) \/ exists msg, bad Out (write Out w p) (s ++ p) msg.
Proof.
  intros Out w s p [H K].
  assert (D : (wr_log (write Out w p) = wr_log w /\ wr_err (write Out w p) = None) \/ 4096 < Z.of_nat (length (s ++ p))).
  { destruct H as (He & _ & -> & _). unfold write. rewrite He. unfold bufsize.
    destruct (Z.leb_spec (Z.of_nat (length p)) (4096 - Z.of_nat (length (wr_buf w)))) as [A|A]; [left; auto|right]. rewrite !app_length. lia. }
  destruct (write_cases0 Out w s p H) as [G|[msg B]].
  - left. split; [exact G|]. destruct D as [[-> _]|D]; [|auto]. destruct K as [K|K]; [auto|]. right. rewrite app_length. lia.
  - right. exists msg. split; [exact B|]. destruct D as [[_ D]|D]; [|exact D]. destruct B as [B _]. congruence.
Qed.

Section readers.
Variable L : jsonlib.
Variable W : world.
Variable T : nat -> nat.
Variable Out : os_write.
Variable jp : JSONPath.
Variable fuel : nat.

(** the result of a reader that writes, and that of one that does not *)
Definition related (s : bytes) (r : option (writer * nat * ended rfault)) (q : option (bytes * nat * ended rfault)) : Prop :=
  match r with
  | None => q = None
  | Some (w', k', e') =>
    (exists b, q = Some (b, k', e') /\ good Out w' (s ++ b)) \/
    exists at_ msg b', e' = EFault (REncode at_ msg) /\ bad Out w' (s ++ b') msg /\ forall b k e, q = Some (b, k, e) -> exists rest, b = b' ++ rest
  end.

Lemma answer_related : forall line k at_ v w s, good Out w s ->
  match answer_to L W T Out jp fuel line k at_ v w with
  | None => answer L W T jp fuel line k at_ v = None
  | Some (w', e') =>
    (exists b, answer L W T jp fuel line k at_ v = Some (b, e') /\ good Out w' (s ++ b)) \/
    exists msg b, e' = EFault (REncode at_ msg) /\ answer L W T jp fuel line k at_ v = Some (b, EDone) /\ bad Out w' (s ++ b) msg
  end.
Proof.
  intros line k at_ v w s H. unfold answer_to, answer.
  destruct (Run_go fuel W (T k) (jp_prog jp) v) as [[out [e|]]|[]| |].
  - left. exists []. rewrite app_nil_r. auto.
  - destruct (j_encode L line out) as [b|msg].
    + destruct (write_cases Out w s b H) as [K|[msg K]].
      * pose proof K as ((-> & _) & _). left. exists b. auto.
      * pose proof K as ((-> & _) & _). right. exists msg, b. auto.
    + left. exists []. rewrite app_nil_r. auto.
  - left. exists []. rewrite app_nil_r. auto.
  - reflexivity.
Qed.

Lemma values_related : forall n k off inp bd w s, good Out w s ->
  related s (readValues_to L W T Out jp fuel n k off inp bd w) (readValues L W T jp fuel n k off inp bd).
Proof.
  induction n as [|n IH]; intros k off inp bd w s H; [reflexivity|]. cbn [readValues_to readValues].
  destruct (j_decode L (mkInput inp bd)) as [v c| |msg].
  2,3: left; exists []; rewrite app_nil_r; auto.
  pose proof (answer_related false k off v w s H) as A.
  destruct (answer_to L W T Out jp fuel false k off v w) as [[w' e']|]; [|rewrite A; reflexivity].
  destruct A as [(b & -> & G)|(msg & b & -> & -> & B)].
  - destruct e' as [|f|]; cbn [related].
    + specialize (IH (S k) (off + Z.of_nat c) (skipn c inp) bd w' (s ++ b) G).
      destruct (readValues_to L W T Out jp fuel n (S k) (off + Z.of_nat c) (skipn c inp) bd w') as [[[w2 k2] e2]|]; cbn [related] in *.
      * destruct IH as [(b2 & -> & G2)|(a2 & m2 & b2 & -> & B2 & P2)].
        { left. exists (b ++ b2). rewrite app_assoc. auto. }
        { right. exists a2, m2, (b ++ b2). rewrite app_assoc. repeat split; auto; try apply B2.
          intros x k3 e3 E. destruct (readValues L W T jp fuel n (S k) (off + Z.of_nat c) (skipn c inp) bd) as [[[r k'] e]|]; [|discriminate].
          injection E as <- <- <-. destruct (P2 r k' e eq_refl) as [rest ->]. exists rest. apply app_assoc. }
      * rewrite IH. reflexivity.
    + left. exists b. auto.
    + left. exists b. auto.
  - right. exists off, msg, b. split; [reflexivity|]. split; [exact B|].
    intros x k3 e3 E. destruct (readValues L W T jp fuel n (S k) (off + Z.of_nat c) (skipn c inp) bd) as [[[r k'] e]|]; [|discriminate].
    injection E as <- <- <-. exists r. reflexivity.
Qed.

Lemma lines_related : forall n k lno inp bd w s, good Out w s ->
  related s (readLines_to L W T Out jp fuel n k lno inp bd w) (readLines L W T jp fuel n k lno inp bd).
Proof.
  induction n as [|n IH]; intros k lno inp bd w s H; [reflexivity|]. cbn [readLines_to readLines].
  destruct (scan inp) as [l rest| |].
  2,3: left; exists []; rewrite app_nil_r; auto.
  destruct (j_unmarshal L l) as [v|msg].
  2: left; exists []; rewrite app_nil_r; auto.
  pose proof (answer_related true k lno v w s H) as A.
  destruct (answer_to L W T Out jp fuel true k lno v w) as [[w' e']|]; [|rewrite A; reflexivity].
  destruct A as [(b & -> & G)|(msg & b & -> & -> & B)].
  - destruct e' as [|f|]; cbn [related].
    + specialize (IH (S k) (lno + 1) rest bd w' (s ++ b) G).
      destruct (readLines_to L W T Out jp fuel n (S k) (lno + 1) rest bd w') as [[[w2 k2] e2]|]; cbn [related] in *.
      * destruct IH as [(b2 & -> & G2)|(a2 & m2 & b2 & -> & B2 & P2)].
        { left. exists (b ++ b2). rewrite app_assoc. auto. }
        { right. exists a2, m2, (b ++ b2). rewrite app_assoc. repeat split; auto; try apply B2.
          intros x k3 e3 E. destruct (readLines L W T jp fuel n (S k) (lno + 1) rest bd) as [[[r k'] e]|]; [|discriminate].
          injection E as <- <- <-. destruct (P2 r k' e eq_refl) as [re ->]. exists re. apply app_assoc. }
      * rewrite IH. reflexivity.
    + left. exists b. auto.
    + left. exists b. auto.
  - right. exists lno, msg, b. split; [reflexivity|]. split; [exact B|].
    intros x k3 e3 E. destruct (readLines L W T jp fuel n (S k) (lno + 1) rest bd) as [[[r k'] e]|]; [|discriminate].
    injection E as <- <- <-. exists r. reflexivity.
Qed.

Lemma reader_related : forall line n k i w s, good Out w s ->
  related s (reader_to L W T Out jp fuel line n k i w) (reader L W T jp fuel line n k i).
Proof. intros [] n k i w s H; [apply lines_related|apply values_related]; exact H. Qed.

(** the same for all the files *)
Definition related_main (s : bytes) (r : option (writer * ended fault)) (q : option (bytes * ended fault)) : Prop :=
  match r with
  | None => q = None
  | Some (w', e') =>
    (exists b, q = Some (b, e') /\ good Out w' (s ++ b)) \/
    exists at_ msg b', (e' = EFault (FStdin (REncode at_ msg)) \/ exists f, e' = EFault (FFile f (REncode at_ msg))) /\
      bad Out w' (s ++ b') msg /\ forall b e, q = Some (b, e) -> exists rest, b = b' ++ rest
  end.

Lemma files_related : forall line n open files k w s, good Out w s ->
  related_main s (readFiles_to L W T Out jp fuel line n k open files w) (readFiles L W T jp fuel line n k open files).
Proof.
  intros line n open. induction files as [|f files IH]; intros k w s H; cbn [readFiles_to readFiles].
  { left. exists []. rewrite app_nil_r. auto. }
  destruct (open f) as [i|msg].
  2: left; exists []; rewrite app_nil_r; auto.
  pose proof (reader_related line n k i w s H) as A.
  destruct (reader_to L W T Out jp fuel line n k i w) as [[[w' k'] e']|]; cbn [related] in A; [|rewrite A; reflexivity].
  destruct A as [(b & -> & G)|(at_ & msg & b' & -> & B & P)].
  - destruct e' as [|g|].
    + specialize (IH k' w' (s ++ b) G).
      destruct (readFiles_to L W T Out jp fuel line n k' open files w') as [[w2 e2]|]; cbn [related_main] in *.
      * destruct IH as [(b2 & -> & G2)|(a2 & m2 & b2 & Ee & B2 & P2)].
        { left. exists (b ++ b2). rewrite app_assoc. auto. }
        { right. exists a2, m2, (b ++ b2). rewrite app_assoc. split; [exact Ee|]. split; [exact B2|].
          intros x e3 E. destruct (readFiles L W T jp fuel line n k' open files) as [[r e]|]; [|discriminate].
          injection E as <- <-. destruct (P2 r e eq_refl) as [re ->]. exists re. apply app_assoc. }
      * rewrite IH. reflexivity.
    + left. exists b. auto.
    + left. exists b. auto.
  - right. exists at_, msg, b'. split; [right; exists f; reflexivity|]. split; [exact B|].
    intros x e3 E. destruct (reader L W T jp fuel line n k i) as [[[r k2] e]|]; [|discriminate].
    destruct (P r k2 e eq_refl) as [re ->]. destruct e as [|g|].
    + destruct (readFiles L W T jp fuel line n k2 open files) as [[r2 e2]|]; [|discriminate].
      injection E as <- <-. exists (re ++ r2). symmetry. apply app_assoc.
    + injection E as <- <-. exists re. reflexivity.
    + injection E as <- <-. exists re. reflexivity.
Qed.
End readers.

Lemma new_good : forall Out, good Out new_writer [].
Proof. intro Out. split; [|left; reflexivity]. split; [reflexivity|]. split; [intros [|] b r l' E; discriminate E|]. split; [reflexivity|]. cbn. lia. Qed.

Lemma received_app : forall a b, received (a ++ b) = received a ++ received b.
Proof. intros. apply flat_map_app. Qed.

Lemma okw_received : forall Out l, okw Out l -> received l = attempted l.
Proof.
  intros Out l. induction l as [|[b r] l IH] using rev_ind; intro H; [reflexivity|].
  rewrite received_app, attempted_app, IH.
  - destruct (H l b r [] eq_refl) as (_ & -> & _). reflexivity.
  - intros x c q y ->. apply (H x c q (y ++ [(b, r)])). rewrite <- app_assoc. reflexivity.
Qed.

Lemma okw_proper : forall Out l, okw Out l -> proper Out l.
Proof. intros Out l H x b r y E. destruct (H x b r y E) as (A & B & C). split; [exact A|]. split; [intro; subst b; cbn in C; lia|auto]. Qed.

Lemma snoc_proper : forall Out l b r, okw Out l -> b <> [] -> r = Out (length l) b -> proper Out (l ++ [(b, r)]).
Proof.
  intros Out l b r H N E x c q y K. apply last_split in K. destruct K as [(-> & -> & [= <- <-])|(z & -> & ->)].
  - split; [exact E|]. split; [exact N|]. intro D. destruct (D eq_refl).
  - destruct (H x c q z eq_refl) as (A & B & C). split; [exact A|]. split; [intro; subst c; cbn in C; lia|auto].
Qed.

Lemma flush_good : forall Out w s, good Out w s -> let log := wr_log (flush Out w) in
  proper Out log /\ attempted log = s /\ (Forall succeeded log -> received log = s) /\ exists rest, s = received log ++ rest /\ Z.of_nat (length rest) <= 4096.
Proof.
  intros Out w s [(He & Hl & -> & Hb) _]. unfold flush. rewrite He. destruct (wr_buf w) as [|c b'] eqn:B; cbv zeta.
  - rewrite app_nil_r. rewrite (okw_received Out _ Hl). split; [apply okw_proper; exact Hl|]. split; [reflexivity|]. split; [reflexivity|].
    exists []. rewrite app_nil_r. split; [reflexivity|]. cbn. lia.
  - set (b := c :: b') in *. unfold emit. cbn [wr_log]. split; [apply snoc_proper; [exact Hl|discriminate|reflexivity]|].
    rewrite attempted_app. cbn [attempted flat_map fst]. rewrite app_nil_r. split; [reflexivity|].
    rewrite received_app, (okw_received Out _ Hl). cbn [received flat_map snd fst]. rewrite app_nil_r.
    split.
    + intro F. apply Forall_app in F. destruct F as [_ F]. apply Forall_inv in F. unfold succeeded in F. cbn [snd] in F. rewrite F. reflexivity.
    + destruct (Out (length (wr_log w)) b) as [[n m]|].
      * exists (skipn n b). rewrite <- app_assoc, firstn_skipn. split; [reflexivity|]. rewrite skipn_length. lia.
      * exists []. rewrite app_nil_r. split; [reflexivity|]. cbn. lia.
Qed.

Lemma flush_bad : forall Out w s msg, bad Out w s msg -> let log := wr_log (flush Out w) in
  proper Out log /\ (exists l b n, log = l ++ [(b, Some (n, msg))]) /\ exists rest, s = attempted log ++ rest.
Proof.
  intros Out w s msg [(He & (l & b & n & El & Hl & N & R) & (rest & ->)) _]. unfold flush. rewrite He. cbv zeta. rewrite El.
  split; [apply snoc_proper; assumption|]. split; [exists l, b, n; reflexivity|]. exists rest. reflexivity.
Qed.

(** what a run that writes has to do with one that does not *)
Definition outcome_related (Out : os_write) (r : option (list (bytes * option (nat * bytes)) * ended fault)) (q : option (bytes * ended fault)) : Prop :=
  match r with
  | None => q = None
  | Some (log, e) => proper Out log /\
    ((q = Some (attempted log, e) /\ (Forall succeeded log -> received log = attempted log) /\
      exists rest, attempted log = received log ++ rest /\ Z.of_nat (length rest) <= 4096) \/
     (write_fault log e /\ forall out e0, q = Some (out, e0) -> 4096 < Z.of_nat (length out) /\ exists rest, out = attempted log ++ rest))
  end.

Lemma finish_related : forall Out r q, related_main Out [] r q ->
  outcome_related Out (match r with Some (w, e) => Some (wr_log (flush Out w), e) | None => None end) q.
Proof.
  intros Out [[w e]|] q H; [|exact H]. cbn [related_main app] in H. cbn [outcome_related].
  destruct H as [(b & -> & G)|(at_ & msg & b' & Ee & B & P)].
  - apply flush_good in G. cbv zeta in G. destruct G as (A & <- & C & D). split; [exact A|]. left. auto.
  - pose proof B as [_ B']. apply flush_bad in B. cbv zeta in B. destruct B as (A & (l & b & n & El) & (rest & ->)). split; [exact A|]. right. split.
    + exists l, b, n, at_, msg. auto.
    + intros out e0 E. destruct (P out e0 E) as [re ->]. split; [rewrite app_length; lia|]. exists (rest ++ re). symmetry. apply app_assoc.
Qed.

Lemma jpath_related : forall L W T Out fuel n line args open stdin,
  outcome_related Out (jpath_to L W T Out fuel n line args open stdin) (jpath L W T fuel n line args open stdin).
Proof.
  intros L W T Out fuel n line args open stdin. unfold jpath_to, jpath.
  assert (Z0 : forall e, outcome_related Out (Some ([], e)) (Some ([], e))).
  { intro e. split; [intros [|] b r l' E; discriminate E|]. left. split; [reflexivity|]. split; [reflexivity|]. exists []. split; [reflexivity|]. cbn. lia. }
  destruct args as [|p files]; [apply Z0|]. destruct (JP_Compile (w_text W) p) as [jp|er| |]; try apply Z0; [|reflexivity].
  destruct files as [|f files].
  - pose proof (reader_related L W T Out jp fuel line n 0 stdin new_writer [] (new_good Out)) as A.
    destruct (reader_to L W T Out jp fuel line n 0 stdin new_writer) as [[[w k'] e]|]; cbn [related] in A; [|rewrite A; reflexivity].
    apply (finish_related Out (Some (w, blame None e))). cbn [related_main].
    destruct A as [(b & -> & G)|(at_ & msg & b' & -> & B & P)].
    + left. exists b. auto.
    + right. exists at_, msg, b'. split; [left; reflexivity|]. split; [exact B|]. intros out e0 E.
      destruct (reader L W T jp fuel line n 0 stdin) as [[[r k2] e]|]; [|discriminate]. injection E as <- <-. apply (P r k2 e eq_refl).
  - apply (finish_related Out (readFiles_to L W T Out jp fuel line n 0 open (f :: files) new_writer)). apply files_related. apply new_good.
Qed.

(** *** the theorems *)
Lemma writes_proper : forall L W T Out fuel n line args open stdin log e,
  jpath_to L W T Out fuel n line args open stdin = Some (log, e) -> proper Out log.
Proof. intros L W T Out fuel n line args open stdin log e E. pose proof (jpath_related L W T Out fuel n line args open stdin) as H. rewrite E in H. apply H. Qed.

Lemma writes_prefix : forall L W T Out fuel n line args open stdin log e out e0,
  jpath_to L W T Out fuel n line args open stdin = Some (log, e) -> jpath L W T fuel n line args open stdin = Some (out, e0) ->
  (exists rest, out = received log ++ rest) /\ (e = e0 \/ write_fault log e).
Proof.
  intros L W T Out fuel n line args open stdin log e out e0 E E0. pose proof (jpath_related L W T Out fuel n line args open stdin) as H. rewrite E, E0 in H.
  destruct H as (HP & [(K & _ & (rest & R & _))|(F & P)]).
  - injection K as -> ->. split; [exists rest; exact R|auto].
  - split; [|auto]. destruct (P out e0 eq_refl) as [_ [rest ->]]. destruct F as (l & b & m & at_ & msg & -> & _).
    assert (Q : exists r, attempted (l ++ [(b, Some (m, msg))]) = received (l ++ [(b, Some (m, msg))]) ++ r).
    { rewrite attempted_app, received_app, (okw_received Out l).
      - cbn. rewrite !app_nil_r. exists (skipn m b). rewrite <- app_assoc, firstn_skipn. reflexivity.
      - intros x c q y ->. destruct (HP x c q (y ++ [(b, Some (m, msg))])) as (A & _ & B); [rewrite <- app_assoc; reflexivity|].
        destruct B as [B C]; [destruct y; discriminate|]. auto. }
    destruct Q as [r ->]. exists (r ++ rest). symmetry. apply app_assoc.
Qed.

Lemma writes_total : forall L W T Out fuel n line args open stdin out e0,
  jpath L W T fuel n line args open stdin = Some (out, e0) -> exists log e, jpath_to L W T Out fuel n line args open stdin = Some (log, e).
Proof.
  intros L W T Out fuel n line args open stdin out e0 E0. pose proof (jpath_related L W T Out fuel n line args open stdin) as H. rewrite E0 in H.
  destruct (jpath_to L W T Out fuel n line args open stdin) as [[log e]|]; [eauto|discriminate H].
Qed.

Lemma writes_quiet : forall L W T Out fuel n line args open stdin log e,
  jpath_to L W T Out fuel n line args open stdin = Some (log, e) -> Forall succeeded log -> jpath L W T fuel n line args open stdin = Some (received log, e).
Proof.
  intros L W T Out fuel n line args open stdin log e E F. pose proof (jpath_related L W T Out fuel n line args open stdin) as H. rewrite E in H.
  destruct H as (_ & [(K & R & _)|((l & b & m & at_ & msg & -> & _) & _)]).
  - rewrite (R F). exact K.
  - apply Forall_app in F. destruct F as [_ F]. apply Forall_inv in F. discriminate F.
Qed.

Lemma writes_done : forall L W T Out fuel n line args open stdin log e,
  jpath_to L W T Out fuel n line args open stdin = Some (log, e) -> exit_status e = 0 ->
  exists rest, jpath L W T fuel n line args open stdin = Some (received log ++ rest, e) /\ Z.of_nat (length rest) <= 4096.
Proof.
  intros L W T Out fuel n line args open stdin log e E X. pose proof (jpath_related L W T Out fuel n line args open stdin) as H. rewrite E in H.
  destruct H as (_ & [(K & _ & (rest & R & Q))|((l & b & m & at_ & msg & _ & [->|[f ->]]) & _)]); try discriminate X.
  exists rest. rewrite <- R. auto.
Qed.

Lemma writes_silent : forall L W T Out fuel n line args open stdin out e,
  jpath L W T fuel n line args open stdin = Some (out, e) -> Z.of_nat (length out) <= 4096 ->
  jpath_to L W T Out fuel n line args open stdin = Some (match out with [] => [] | _ => [(out, Out 0%nat out)] end, e).
Proof.
  intros L W T Out fuel n line args open stdin out e E K. pose proof (jpath_related L W T Out fuel n line args open stdin) as H. rewrite E in H.
  destruct (jpath_to L W T Out fuel n line args open stdin) as [[log e0]|]; [|discriminate H].
  destruct H as (HP & [(J & _)|(_ & P)]); [|destruct (P out e eq_refl); lia].
  injection J as -> ->. repeat f_equal. destruct log as [|[b r] [|[c q] l]].
  - reflexivity.
  - cbn in *. rewrite app_nil_r in *. destruct (HP [] b r [] eq_refl) as (-> & N & _). destruct b; [destruct (N eq_refl)|reflexivity].
  - destruct (HP [] b r ((c, q) :: l) eq_refl) as (_ & _ & B). destruct B as [_ B]; [discriminate|].
    destruct (HP [(b, r)] c q l eq_refl) as (_ & N & _). cbn in K. rewrite !app_length in K. destruct c; [destruct (N eq_refl)|]. cbn in K. lia.
Qed.

Lemma writes_noticed : forall L W T Out fuel n line args open stdin log e out e0,
  jpath_to L W T Out fuel n line args open stdin = Some (log, e) -> jpath L W T fuel n line args open stdin = Some (out, e0) ->
  out <> attempted log -> write_fault log e /\ exit_status e = 1.
Proof.
  intros L W T Out fuel n line args open stdin log e out e0 E E0 N. pose proof (jpath_related L W T Out fuel n line args open stdin) as H. rewrite E, E0 in H.
  destruct H as (_ & [(K & _)|(F & _)]); [congruence|]. split; [exact F|]. destruct F as (l & b & m & at_ & msg & _ & [->|[f ->]]); reflexivity.
Qed.

Lemma writes_lost : exists L W T Out fuel n line args open stdin log e out,
  jpath_to L W T Out fuel n line args open stdin = Some (log, e) /\ exit_status e = 0 /\
  jpath L W T fuel n line args open stdin = Some (out, e) /\ out <> [] /\ received log = [].
Proof.
  exists x_lib, x_world, (fun k => k), (fun _ _ => Some (0%nat, b_of "no space left on device")), 20%nat, 5%nat, true, [b_of "$"], (fun _ => Lost []), (mkInput (b_of "1") None).
  exists [(b_of "[1]" ++ [10], Some (0%nat, b_of "no space left on device"))], EDone, (b_of "[1]" ++ [10]).
  split; [vm_compute; reflexivity|]. split; [reflexivity|]. split; [vm_compute; reflexivity|]. split; [discriminate|]. vm_compute. reflexivity.
Qed.
