(** Addresses are read as written and select what is there. *)
From Verif Require Import Base Syntax SpecSyntax SpecGrammar SpecTokens SpecPrint Value Lexer Parser ParserPath PrintProofs
  LiteralProofs Machine Coder Api SpecDoc DocProofs SpecSelect SpecRun SpecCode StepExact SelectFinal SpecText TextProofs SelectText
  RunProofs ParserExact ParserComplete SpecAddress Examples.
Local Open Scope Z_scope.

Definition key_step (k : key) : pstep :=
  mkStep OpSelect [match k with AtIndex i => PInt (Z.of_nat i) | AtName s => PStr s end].

(** ** Texts *)
Section texts.
Variable TX : textoracles.
Notation tf := (o_parse_float TX).
Notation re := (o_re_ok TX).

Lemma key_elem : forall k r, nameable k ->
  g_elem tf re true (key_text k ++ 93 :: r) (match k with AtIndex i => PInt (Z.of_nat i) | AtName s => PStr s end) (93 :: r).
Proof.
  intros [i|s] r H; cbn [key_text nameable] in *.
  - apply GElInt. assert (E : dec_val (digits (Z.of_nat i)) = Z.of_nat i) by (apply digits_val; lia).
    rewrite <- E at 2. apply (PTokInt _ []); auto using digits_ne, digits_digit.
    + simpl. unfold digit. lia.
    + rewrite E. unfold max_int64 in H. lia.
  - apply GElStr. unfold print_str. cbn [app]. rewrite <- app_assoc. cbn [app].
    apply (PTok1 _ [] (39 :: print_body 39 s ++ 39 :: 93 :: r)); [constructor|].
    apply TokStr; auto. apply print_body_ok; auto.
Qed.

Lemma keys_steps : forall p, Forall nameable p ->
  g_steps tf re true (flat_map (fun k => 91 :: key_text k ++ [93]) p) (map key_step p).
Proof.
  induction p as [|k p IH]; intro H; [constructor; apply end_tok|]. inversion H; subst.
  cbn [flat_map map]. econstructor; [|apply IH; assumption].
  cbn [app]. rewrite <- app_assoc. cbn [app].
  eapply GStepSub; [apply ptok_char; [simpl; tauto|simpl; lia]| |apply ptok_char; [simpl; tauto|simpl; lia]].
  apply GSubOne. apply key_elem. assumption.
Qed.

Lemma print_body_bytes : forall s, is_bytes s -> is_bytes (print_body 39 s).
Proof.
  intros s H. induction H as [|c s Hc H IH]; [constructor|]. cbn [print_body flat_map]. apply Forall_app. split; [|exact IH].
  unfold print_byte. destruct (_ || _)%bool; [repeat constructor; lia|]. destruct (Z.ltb_spec c 32).
  - pose proof (hex_char_ok (c / 16)) as A. pose proof (hex_char_ok (c mod 16)) as B.
    destruct A as [A _]; [split; [apply Z.div_pos; lia|apply Z.div_lt_upper_bound; lia]|].
    destruct B as [B _]; [apply Z.mod_pos_bound; lia|].
    unfold hexdigit in *. repeat (constructor; [lia|]). constructor.
  - repeat constructor; lia.
Qed.

Lemma key_bytes : forall k, nameable k -> is_bytes (key_text k).
Proof.
  intros [i|s] H; cbn [key_text nameable] in *.
  - eapply Forall_impl; [|apply digits_digit]. unfold digit. cbv beta. intros; lia.
  - unfold print_str. constructor; [lia|]. apply Forall_app. split; [apply print_body_bytes; assumption|]. repeat constructor; lia.
Qed.

Lemma address_bytes : forall p, Forall nameable p -> is_bytes (address p).
Proof.
  intros p H. constructor; [lia|]. induction H as [|k p Hk H IH]; [constructor|]. cbn [flat_map].
  constructor; [lia|]. apply Forall_app. split; [|exact IH]. apply Forall_app. split; [apply key_bytes; assumption|].
  repeat constructor; lia.
Qed.

Lemma address_reads : forall p, Forall nameable p -> ParsePath TX (address p) = OK (map key_step p).
Proof.
  intros p H. apply path_complete.
  - eapply Forall_impl; [|apply address_bytes; exact H]. cbv beta. intros; lia.
  - eexists. split; [|apply keys_steps; assumption]. apply ptok_char; [simpl; tauto|simpl; lia].
Qed.

Lemma address_compiles : forall p, Forall nameable p -> literal_floats tf -> Z.of_nat (length (address p)) <= 3145728 ->
  exists jp, accepted TX (address p) (map key_step p) jp /\ fits jp.
Proof.
  intros p H Hl Hs. destruct (text_short TX _ _ (address_bytes p H) Hl (address_reads p H) Hs) as (jp & H1 & H2).
  exists jp. split; [|exact H2]. split; [apply address_bytes; assumption|]. split; [exact Hl|]. split; [apply address_reads; assumption|exact H1].
Qed.
End texts.

Lemma key_step_inj : forall k k', key_step k = key_step k' -> k = k'.
Proof. intros [i|s] [j|s'] H; inversion H; subst; [f_equal; lia|reflexivity]. Qed.

Lemma address_inj : forall p q, Forall nameable p -> Forall nameable q -> address p = address q -> p = q.
Proof.
  intros p q Hp Hq H. pose proof (address_reads x_text p Hp) as A. pose proof (address_reads x_text q Hq) as B.
  assert (E : map key_step p = map key_step q) by congruence. clear - E. revert q E.
  induction p as [|k p IH]; intros [|k' q] E; try discriminate; [reflexivity|].
  pose proof (f_equal (hd (key_step k)) E) as E1. pose proof (f_equal (@tl _) E) as E2. cbn in E1, E2.
  f_equal; [apply key_step_inj; exact E1|apply IH; exact E2].
Qed.

(** ** Selections *)
Lemma gathers_one : forall pick v l, gathers pick [v] l <-> pick v l.
Proof.
  intros pick v l. split.
  - intros (ls & H & ->). inversion H as [|? x ? ls' Hx H']; subst. inversion H'; subst. cbn. rewrite app_nil_r. exact Hx.
  - intro H. exists [l]. split; [auto|]. cbn. rewrite app_nil_r. reflexivity.
Qed.
Lemma gathers_none : forall pick l, gathers pick [] l <-> l = [].
Proof.
  intros pick l. split; [intros (ls & H & ->); inversion H; reflexivity|intros ->; exists []; split; auto].
Qed.

(** what one key selects from a value *)
Definition key_picks (k : key) : val -> list val -> Prop :=
  match k with AtIndex i => picks (SIndex true (Z.of_nat i)) | AtName s => picks_name s end.

Lemma key_runs : forall W root t cands k r, orders_ok W -> doc root -> Forall doc cands -> nameable k ->
  (runs W root t cands [key_step k] r <-> exists l, r = OK (l, t) /\ gathers (key_picks k) cands l).
Proof.
  intros W root t cands [i|s] r HW Hr Hc Hk; cbn [key_picks nameable] in *.
  - assert (Hi : in_int64 (Z.of_nat i)) by (unfold in_int64, min_int64, max_int64 in *; lia).
    destruct (index_exact W root t cands (Z.of_nat i) r HW Hr Hc Hi) as [A _]. exact A.
  - apply (member_exact W root t cands s (key_step (AtName s)) r HW Hr Hc). right. right. left. reflexivity.
Qed.

Lemma key_wf : forall k, nameable k -> wf_step (key_step k).
Proof.
  intros k H. assert (K : wf_path (map key_step [k])).
  { apply (path_wf x_text x_floats (address [k])); [apply address_bytes; auto|apply address_reads; auto]. }
  inversion K; assumption.
Qed.
Lemma keys_wf : forall p, Forall nameable p -> wf_path (map key_step p).
Proof. intros p H. apply Forall_map. eapply Forall_impl; [|exact H]. apply key_wf. Qed.

Lemma keys_runs_none : forall W root t p r, orders_ok W -> doc root -> Forall nameable p -> small (map key_step p) ->
  (runs W root t [] (map key_step p) r <-> r = OK ([], t)).
Proof.
  intros W root t p r HW Hr Hp. revert r. induction Hp as [|k p Hk Hp IH]; intros r Hs.
  - cbn [map]. rewrite runs_exact by (auto; constructor). cbn. split; congruence.
  - cbn [map] in *. change (key_step k :: map key_step p) with ([key_step k] ++ map key_step p) in *.
    assert (Hw : wf_path ([key_step k] ++ map key_step p)) by (apply (keys_wf (k :: p)); auto).
    destruct (small_app _ _ Hs) as [_ Hs2].
    rewrite runs_app by auto. split.
    + intros [(l & t1 & H1 & H2)|[(e & H1 & _)|[H1 _]]]; apply key_runs in H1; auto; destruct H1 as (l' & E & G); try discriminate.
      injection E as <- <-. apply gathers_none in G. subst l. apply IH in H2; auto.
    + intros ->. left. exists [], t. split; [apply key_runs; auto; exists []; split; [reflexivity|apply gathers_none; reflexivity]|].
      apply IH; auto.
Qed.

(** what one key may find *)
Lemma key_picks_cases : forall k v l, doc v -> key_picks k v l ->
  (exists x k', l = [x] /\ alias k k' /\ value_at v [k'] x /\ forall k'' y, alias k k'' -> value_at v [k''] y -> k'' = k' /\ y = x) \/
  (l = [] /\ forall k' x, alias k k' -> ~ value_at v [k'] x).
Proof.
  assert (One : forall v k x, value_at v [k] x -> match v, k with
    | VArr l, AtIndex i => nth_error l i = Some x | VObj m, AtName s => In (s, x) m | _, _ => False end).
  { intros v k x H. inversion H as [|l i e a y He Hv|m s e a y He Hv]; subst; inversion Hv; subst; assumption. }
  assert (Nm : forall s v l, doc v -> picks_name s v l ->
    (exists x, l = [x] /\ value_at v [AtName s] x /\ forall y, value_at v [AtName s] y -> y = x) \/
    (l = [] /\ forall x, ~ value_at v [AtName s] x)).
  { intros s v l Hd H. destruct H as [m x Hx|m Hx|v Hv].
    - left. exists x. split; [reflexivity|]. split; [econstructor; [exact Hx|constructor]|].
      intros y Hy. apply One in Hy. destruct (Hd _ (WSelf _)) as [Hn _]. clear - Hn Hx Hy.
      induction m as [|[s' z] m IH]; [destruct Hx|]. cbn in Hn. inversion Hn as [|? ? H1 H2]; subst.
      destruct Hx as [E|Hx], Hy as [F|Hy].
      + congruence.
      + inversion E; subst. exfalso. apply H1. apply in_map_iff. exists (s, y). auto.
      + inversion F; subst. exfalso. apply H1. apply in_map_iff. exists (s, x). auto.
      + auto.
    - right. split; [reflexivity|]. intros x H. apply One in H. apply Hx. apply in_map_iff. exists (s, x). auto.
    - right. split; [reflexivity|]. intros x H. apply One in H. destruct v; try discriminate; contradiction. }
  intros [i|s] v l Hd H; cbn [key_picks] in H.
  - inversion H as [|back n j m x Hj He E1 E2 E3|back n m Hr E1 E2 E3|back n w m Hw Hn E1 E2 E3| |]; subst.
    + left. destruct He as [He1 He2]. assert (j = Z.of_nat i) by lia. subst j. rewrite Nat2Z.id in He2.
      exists x, (AtIndex i). split; [reflexivity|]. split; [left; reflexivity|].
      split; [econstructor; [exact He2|constructor]|].
      intros k'' y Hk Hy. apply One in Hy. destruct Hk as [->|(i' & _ & ->)]; [|contradiction]. split; congruence.
    + right. split; [reflexivity|]. intros k' x Hk Hx. apply One in Hx. destruct Hk as [->|(i' & _ & ->)]; [|contradiction].
      assert (i < length m)%nat by (apply nth_error_Some; congruence). lia.
    + destruct (Nm _ _ _ Hd Hn) as [(x & -> & Hx & Hu)|[-> Hx]].
      * left. exists x, (AtName (decimal (Z.of_nat i))). split; [reflexivity|]. split; [right; eauto|]. split; [exact Hx|].
        intros k'' y Hk Hy. destruct Hk as [->|(i' & E & ->)].
        -- apply One in Hy. destruct v; try discriminate; contradiction.
        -- injection E as <-. split; [reflexivity|auto].
      * right. split; [reflexivity|]. intros k'' y Hk Hy. destruct Hk as [->|(i' & E & ->)].
        -- apply One in Hy. destruct v; try discriminate; contradiction.
        -- injection E as <-. apply (Hx _ Hy).
  - destruct (Nm _ _ _ Hd H) as [(x & -> & Hx & Hu)|[-> Hx]].
    + left. exists x, (AtName s). split; [reflexivity|]. split; [left; reflexivity|]. split; [exact Hx|].
      intros k'' y Hk Hy. destruct Hk as [->|(i' & E & _)]; [|discriminate]. split; auto.
    + right. split; [reflexivity|]. intros k'' y Hk Hy. destruct Hk as [->|(i' & E & _)]; [|discriminate]. apply (Hx _ Hy).
Qed.

Lemma value_at_cons : forall v k p x, value_at v (k :: p) x <-> exists y, value_at v [k] y /\ value_at y p x.
Proof.
  intros v k p x. split.
  - intro H. inversion H; subst; (eexists; split; [econstructor; [eassumption|constructor]|assumption]).
  - intros (y & H1 & H2). inversion H1 as [|l i e a z He Hv|m s e a z He Hv]; subst; inversion Hv; subst; econstructor; eauto.
Qed.
Lemma value_at_within : forall v p x, value_at v p x -> within x v.
Proof.
  intros v p x H. induction H as [v|l i e a x He H IH|m s e a x He H IH]; [constructor| |].
  - eapply WElem; [eapply nth_error_In; eauto|exact IH].
  - eapply WMember; eauto.
Qed.
Lemma within_value_at : forall x v, within x v -> exists p, value_at v p x.
Proof.
  intros x v H. induction H as [v|x e l He H (p & IH)|x k e m He H (p & IH)].
  - exists []. constructor.
  - apply In_nth_error in He as [i He]. exists (AtIndex i :: p). econstructor; eauto.
  - exists (AtName k :: p). econstructor; eauto.
Qed.

Definition found (p : list key) (v : val) (l : list val) : Prop :=
  (exists x p', l = [x] /\ Forall2 alias p p' /\ value_at v p' x /\
     forall p'' y, Forall2 alias p p'' -> value_at v p'' y -> p'' = p' /\ y = x) \/
  (l = [] /\ forall p' x, Forall2 alias p p' -> ~ value_at v p' x).

Lemma keys_runs : forall W root t p v r, orders_ok W -> doc root -> doc v -> Forall nameable p -> small (map key_step p) ->
  runs W root t [v] (map key_step p) r -> exists l, r = OK (l, t) /\ found p v l.
Proof.
  intros W root t p v r HW Hr Hv Hp. revert v r Hv. induction Hp as [|k p Hk Hp IH]; intros v r Hv Hs H.
  - cbn [map] in H. apply runs_exact in H; auto; [|constructor]. cbn in H. exists [v]. split; [congruence|]. left.
    exists v, []. split; [reflexivity|]. split; [constructor|]. split; [constructor|].
    intros p'' y F Hy. inversion F; subst. inversion Hy; subst. auto.
  - cbn [map] in *. change (key_step k :: map key_step p) with ([key_step k] ++ map key_step p) in *.
    assert (Hw : wf_path ([key_step k] ++ map key_step p)) by (apply (keys_wf (k :: p)); auto).
    destruct (small_app _ _ Hs) as [_ Hs2].
    apply runs_app in H; auto.
    destruct H as [(l & t1 & H1 & H2)|[(e & H1 & _)|[H1 _]]]; apply key_runs in H1; auto; destruct H1 as (l' & E & G); try discriminate.
    injection E as <- <-. apply (proj1 (gathers_one _ _ _)) in G. apply key_picks_cases in G; auto.
    destruct G as [(x & k' & -> & Ha & Hx & Hu)|[-> Hn]].
    + assert (Hdx : doc x) by (intros z Hz; apply Hv; eapply within_trans; [exact Hz|eapply value_at_within; exact Hx]).
      destruct (IH x r Hdx Hs2 H2) as (l & -> & F). exists l. split; [reflexivity|].
      destruct F as [(y & p' & -> & Fa & Hy & Fu)|[-> Fn]].
      * left. exists y, (k' :: p'). split; [reflexivity|]. split; [constructor; assumption|].
        split; [apply value_at_cons; eauto|]. intros p'' z F Hz. inversion F as [|? k2 ? p2 F1 F2]; subst.
        apply value_at_cons in Hz as (w & Hw1 & Hw2). destruct (Hu _ _ F1 Hw1) as [-> ->].
        destruct (Fu _ _ F2 Hw2) as [-> ->]. auto.
      * right. split; [reflexivity|]. intros p'' z F Hz. inversion F as [|? k2 ? p2 F1 F2]; subst.
        apply value_at_cons in Hz as (w & Hw1 & Hw2). destruct (Hu _ _ F1 Hw1) as [-> ->]. eapply Fn; eauto.
    + apply keys_runs_none in H2; auto. subst r. exists []. split; [reflexivity|]. right. split; [reflexivity|].
      intros p'' z F Hz. inversion F as [|? k2 ? p2 F1 F2]; subst. apply value_at_cons in Hz as (w & Hw1 & _). eapply Hn; eauto.
Qed.

Lemma keys_total : forall W root t p, orders_ok W -> doc root -> Forall nameable p -> small (map key_step p) ->
  exists r, runs W root t [root] (map key_step p) r.
Proof.
  intros W root t p HW Hr Hp Hs. eexists. apply runs_exact; auto. apply keys_wf. assumption.
Qed.

Lemma found_fun : forall p v l l', found p v l -> found p v l' -> l = l'.
Proof.
  intros p v l l' [(x & q & -> & Hq & Hx & Hu)|[-> Hn]] [(x' & q' & -> & Hq' & Hx' & Hu')|[-> Hn']]; auto.
  - destruct (Hu _ _ Hq' Hx'). congruence.
  - destruct (Hn' _ _ Hq Hx).
  - destruct (Hn _ _ Hq' Hx').
Qed.

Lemma address_found : forall TX p, Forall nameable p -> literal_floats (o_parse_float TX) ->
  Z.of_nat (length (address p)) <= 3145728 ->
  exists jp, JP_Compile TX (address p) = OK jp /\
  forall W t root r, orders_ok W -> doc root -> (JP_Eval W t jp root r <-> exists l, r = OK l /\ found p root l).
Proof.
  intros TX p Hp Hl Hs. destruct (address_compiles TX p Hp Hl Hs) as (jp & Ha & Hf).
  exists jp. split; [apply Ha|]. intros W t root r HW Hr.
  pose proof (fits_small _ _ _ _ Ha Hf) as Hsm.
  rewrite (text_runs _ _ _ _ Ha Hf W t root r HW Hr). split.
  - intros (r' & H & ->). apply keys_runs in H; auto. destruct H as (l & -> & F). exists l. auto.
  - intros (l & -> & F). destruct (keys_total W root t p HW Hr Hp Hsm) as [r' H]. exists r'. split; [exact H|].
    apply keys_runs in H; auto. destruct H as (l' & -> & F'). cbn. f_equal. eapply found_fun; eauto.
Qed.

Lemma address_exact : forall TX p, Forall nameable p -> literal_floats (o_parse_float TX) ->
  Z.of_nat (length (address p)) <= 3145728 ->
  exists jp, JP_Compile TX (address p) = OK jp /\
  forall W t root r, orders_ok W -> doc root ->
  (JP_Eval W t jp root r <->
   (exists x q, r = OK [x] /\ Forall2 alias p q /\ value_at root q x) \/
   (r = OK [] /\ forall q x, Forall2 alias p q -> ~ value_at root q x)).
Proof.
  intros TX p Hp Hl Hs. destruct (address_found TX p Hp Hl Hs) as (jp & Hj & H). exists jp. split; [exact Hj|].
  intros W t root r HW Hr. rewrite (H W t root r HW Hr). split.
  - intros (l & -> & [(x & q & -> & Hq & Hx & _)|[-> Hn]]); [left|right]; eauto.
  - assert (T : exists l, found p root l).
    { destruct (address_compiles TX p Hp Hl Hs) as (jp' & Ha & Hf). pose proof (fits_small _ _ _ _ Ha Hf) as Hsm.
      destruct (keys_total W root t p HW Hr Hp Hsm) as [r' K]. apply keys_runs in K; auto. destruct K as (l & _ & F). eauto. }
    destruct T as [l F]. intros [(x & q & -> & Hq & Hx)|[-> Hn]]; exists l; (split; [|exact F]); f_equal.
    + destruct F as [(y & q' & -> & Hq' & Hy & Hu)|[_ Fn]]; [destruct (Hu _ _ Hq Hx); congruence|destruct (Fn _ _ Hq Hx)].
    + destruct F as [(y & q' & -> & Hq' & Hy & Hu)|[-> _]]; [destruct (Hn _ _ Hq' Hy)|reflexivity].
Qed.

Lemma place_nameable : forall root p x, doc root -> byte_names root -> value_at root p x -> Forall nameable p.
Proof.
  intros root p x Hd Hb H. assert (K : forall v, within v root -> value_at v p x -> Forall nameable p).
  2:{ apply (K root); [constructor|assumption]. }
  clear H. induction p as [|k p IH]; intros v Hv H; [constructor|].
  inversion H as [|l i e a y He Hy|m s e a y He Hy]; subst.
  - constructor; [|apply (IH e); [|assumption]].
    + cbn. pose proof (Hd _ Hv) as L. cbn in L. assert (i < length l)%nat by (apply nth_error_Some; congruence). lia.
    + eapply within_trans; [|exact Hv]. eapply WElem; [eapply nth_error_In; eauto|constructor].
  - constructor; [cbn; eapply Hb; eauto|]. apply (IH e); [|assumption].
    eapply within_trans; [|exact Hv]. eapply WMember; [eauto|constructor].
Qed.

Lemma alias_refl : forall p, Forall2 alias p p.
Proof. induction p; constructor; auto. left. reflexivity. Qed.

Lemma address_selects : forall TX root p x, literal_floats (o_parse_float TX) -> doc root -> byte_names root ->
  value_at root p x -> Z.of_nat (length (address p)) <= 3145728 ->
  exists jp, JP_Compile TX (address p) = OK jp /\
  forall W t r, orders_ok W -> (JP_Eval W t jp root r <-> r = OK [x]).
Proof.
  intros TX root p x Hl Hd Hb Hx Hs. pose proof (place_nameable _ _ _ Hd Hb Hx) as Hp.
  destruct (address_found TX p Hp Hl Hs) as (jp & Hj & H). exists jp. split; [exact Hj|].
  intros W t r HW. rewrite (H W t root r HW Hd).
  assert (F : forall l, found p root l <-> l = [x]).
  { intro l. split.
    - intros [(y & q & -> & Hq & Hy & Hu)|[_ Hn]]; [destruct (Hu p x (alias_refl p) Hx); congruence|].
      destruct (Hn p x (alias_refl p) Hx).
    - intros ->. destruct (address_compiles TX p Hp Hl Hs) as (jp' & Ha & Hf). pose proof (fits_small _ _ _ _ Ha Hf) as Hsm.
      destruct (keys_total W root t p HW Hd Hp Hsm) as [r' K]. apply keys_runs in K; auto. destruct K as (l & _ & G).
      destruct G as [(y & q & -> & Hq & Hy & Hu)|[_ Hn]]; [|destruct (Hn p x (alias_refl p) Hx)].
      left. destruct (Hu p x (alias_refl p) Hx) as [-> ->]. exists y, q. auto. }
  split; [intros (l & -> & G); apply F in G; congruence|]. intros ->. exists [x]. split; [reflexivity|]. apply F. reflexivity.
Qed.

(** every result of a path has an address *)
Lemma result_address : forall TX s ss jp, accepted TX s ss jp -> ~ has_filter ss ->
  forall W t root l v, orders_ok W -> doc root -> byte_names root -> JP_Eval W t jp root (OK l) -> In v l ->
  exists p, value_at root p v /\
  (Z.of_nat (length (address p)) <= 3145728 ->
   exists jp', JP_Compile TX (address p) = OK jp' /\ forall W' t', orders_ok W' -> JP_Eval W' t' jp' root (OK [v])).
Proof.
  intros TX s ss jp Ha Hf W t root l v HW Hd Hb H Hv.
  destruct (text_within _ _ _ _ Ha W t root l HW H v Hv) as [K|[_ K]]; [|contradiction].
  apply within_value_at in K as [p K]. exists p. split; [exact K|].
  intro L. destruct (address_selects TX root p v) as (jp' & Hj & E); auto; [apply Ha|].
  exists jp'. split; [exact Hj|]. intros W' t' HW'. apply E; auto.
Qed.
