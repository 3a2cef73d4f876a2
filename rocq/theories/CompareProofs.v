(** The laws of <, <=, >, >= and == between numbers of both kinds. *)
From Coq Require Import QArith Qabs Lqa.
From Verif Require Import Syntax Value Machine MachineProofs SpecOp SpecExpr SpecRound SpecCompare OpProofs FloatProofs ArithProofs LogicProofs
  EqProofs IndexProofs ExprFinal RoundProofs RoundFinal.
Import ListNotations.
Local Open Scope Z_scope.

(** ** Doubles on a line with both infinities *)
Definition ext (f : f64) : option (Z * Q) :=
  match f with
  | S754_nan => None
  | S754_infinity true => Some (-1, 0%Q)
  | S754_infinity false => Some (1, 0%Q)
  | _ => match real_of f with Some q => Some (0, q) | None => None end
  end.

Definition before (u v : Z * Q) : Prop := fst u < fst v \/ (fst u = fst v /\ (snd u < snd v)%Q).
Definition level (u v : Z * Q) : Prop := fst u = fst v /\ (snd u == snd v)%Q.

Lemma ext_nan : forall f, ext f = None <-> f = S754_nan.
Proof.
  intros [s|[]| |s m e]; split; intro H; try discriminate H; try reflexivity.
Qed.

Lemma ext_compare : forall x y u v, double x -> double y -> ext x = Some u -> ext y = Some v ->
  (f_lt x y <-> before u v) /\ (f_eq x y <-> level u v).
Proof.
  intros x y u v Dx Dy Ex Ey.
  assert (Fin : forall f w, double f -> ext f = Some w -> (exists q, real_of f = Some q /\ w = (0, q)) \/
    (f = S754_infinity true /\ w = (-1, 0%Q)) \/ (f = S754_infinity false /\ w = (1, 0%Q))).
  { intros [s|[]| |s m e] w _ E; cbn [ext] in E; try discriminate E.
    - left. injection E as <-. exists 0%Q. split; reflexivity.
    - right; left. injection E as <-. split; reflexivity.
    - right; right. injection E as <-. split; reflexivity.
    - left. destruct (real_of (S754_finite s m e)) as [q|]; [|discriminate E]. injection E as <-. exists q. split; reflexivity. }
  unfold f_lt, f_eq, before, level.
  destruct (Fin x u Dx Ex) as [(p & Rp & ->)|[(-> & ->)|(-> & ->)]]; destruct (Fin y v Dy Ey) as [(q & Rq & ->)|[(-> & ->)|(-> & ->)]]; cbn [fst snd].
  - rewrite (compare_real x y p q Dx Dy Rp Rq). rewrite Qlt_alt, Qeq_alt. split; split; intro H.
    + right. split; [reflexivity|congruence].
    + destruct H as [H|[_ H]]; [lia|congruence].
    + split; [reflexivity|congruence].
    + destruct H as [_ H]; congruence.
  - destruct x as [s|s| |[] m e]; try discriminate Rp; cbn; split; split; intro H; try discriminate H; try lia.
  - destruct x as [s|s| |[] m e]; try discriminate Rp; cbn; split; split; intro H; try discriminate H; try lia; reflexivity.
  - destruct y as [s|s| |[] m e]; try discriminate Rq; cbn; split; split; intro H; try discriminate H; try lia; reflexivity.
  - cbn. split; split; intro H; try discriminate H; try lia; try reflexivity; [destruct H as [H|[_ H]]; [lia|lra]|split; reflexivity].
  - cbn. split; split; intro H; try discriminate H; try lia; reflexivity.
  - destruct y as [s|s| |[] m e]; try discriminate Rq; cbn; split; split; intro H; try discriminate H; try lia.
  - cbn. split; split; intro H; try discriminate H; try lia.
  - cbn. split; split; intro H; try discriminate H; try lia; try reflexivity; [destruct H as [H|[_ H]]; [lia|lra]|split; reflexivity].
Qed.

Lemma lt_ext : forall x y, double x -> double y -> (f_lt x y <-> exists u v, ext x = Some u /\ ext y = Some v /\ before u v).
Proof.
  intros x y Dx Dy. split.
  - intro H. destruct (ext x) as [u|] eqn:Ex; [|apply ext_nan in Ex; subst; discriminate H].
    destruct (ext y) as [v|] eqn:Ey; [|apply ext_nan in Ey; subst; destruct x as [[]|[]| |[]]; discriminate H].
    exists u, v. split; [reflexivity|]. split; [reflexivity|]. apply (ext_compare x y u v Dx Dy Ex Ey), H.
  - intros (u & v & Ex & Ey & H). apply (ext_compare x y u v Dx Dy Ex Ey), H.
Qed.
Lemma eq_ext : forall x y, double x -> double y -> (f_eq x y <-> exists u v, ext x = Some u /\ ext y = Some v /\ level u v).
Proof.
  intros x y Dx Dy. split.
  - intro H. destruct (ext x) as [u|] eqn:Ex; [|apply ext_nan in Ex; subst; discriminate H].
    destruct (ext y) as [v|] eqn:Ey; [|apply ext_nan in Ey; subst; destruct x as [[]|[]| |[]]; discriminate H].
    exists u, v. split; [reflexivity|]. split; [reflexivity|]. apply (ext_compare x y u v Dx Dy Ex Ey), H.
  - intros (u & v & Ex & Ey & H). apply (ext_compare x y u v Dx Dy Ex Ey), H.
Qed.

Ltac on_line := unfold before, level in *; cbn [fst snd] in *.

(** rounding is monotone *)
Lemma closest_mono : forall p q f g r r', (p < q)%Q -> double f -> double g -> closest p f -> closest q g ->
  real_of f = Some r -> real_of g = Some r' -> (r <= r')%Q.
Proof.
  intros p q f g r r' L Df Dg (a & Ea & Ha) (b & Eb & Hb) Er Er'. rewrite Er in Ea. injection Ea as <-. rewrite Er' in Eb. injection Eb as <-.
  destruct (Qlt_le_dec r' r) as [K|K]; [exfalso|exact K].
  assert (A : (Qabs (p - r) <= Qabs (p - r'))%Q).
  { destruct (Ha g r' Dg Er') as [E|[E|(E & _)]]; [rewrite E|..]; lra. }
  assert (B : (Qabs (q - r') <= Qabs (q - r))%Q).
  { destruct (Hb f r Df Er) as [E|[E|(E & _)]]; [rewrite E|..]; lra. }
  clear - L K A B. qabs; lra.
Qed.

Definition small (z : Z) : Prop := -9223372036854775808 <= z <= 9223372036854775807.

Lemma nearest_finite : forall z, small z -> exists r, ext (nearest z) = Some (0, r) /\ real_of (nearest z) = Some r /\ closest (inject_Z z) (nearest z).
Proof.
  intros z Hz. pose proof (nearest_rounded z) as R. inversion R as [f A1 A2 A3 A4 A5 Ef|s A1 A2 Ef].
  - destruct A3 as (r & Er & Hr). exists r. split; [|split; [exact Er|exists r; split; [exact Er|exact Hr]]].
    destruct (nearest z) as [s|s| |s m e]; cbn [ext]; try discriminate Er; rewrite Er; reflexivity.
  - exfalso. assert (Qabs (inject_Z z) < overflow)%Q; [|lra]. apply Qle_lt_trans with (inject_Z 9223372036854775808); [|vm_compute; reflexivity].
    apply Qabs_Qle_condition. change (- inject_Z 9223372036854775808)%Q with (inject_Z (-9223372036854775808)). rewrite <- !Zle_Qle. unfold small in Hz. lia.
Qed.

Lemma nearest_mono : forall x y r r', small x -> small y -> ext (nearest x) = Some (0, r) -> ext (nearest y) = Some (0, r') -> x <= y -> (r <= r')%Q.
Proof.
  intros x y r r' Hx Hy Ex Ey L. destruct (nearest_finite x Hx) as (a & Ea & Ra & Ca), (nearest_finite y Hy) as (b & Eb & Rb & Cb).
  rewrite Ex in Ea. injection Ea as <-. rewrite Ey in Eb. injection Eb as <-.
  destruct (Z.eq_dec x y) as [->|N]; [rewrite Ra in Rb; injection Rb as <-; apply Qle_refl|].
  eapply closest_mono; [|apply nearest_good|apply nearest_good|exact Ca|exact Cb|exact Ra|exact Rb]. rewrite <- Zlt_Qlt. lia.
Qed.

(** ** Numbers of both kinds *)
Inductive num : val -> option Z -> Z * Q -> Prop :=
| NuInt : forall v z r, int_of v z -> small z -> ext (nearest z) = Some (0, r) -> num v (Some z) (0, r)
| NuFloat : forall f u, double f -> ext f = Some u -> num (VFloat f) None u.

Definition less (k : option Z) (u : Z * Q) (k' : option Z) (v : Z * Q) : Prop :=
  match k, k' with Some x, Some y => x < y | _, _ => before u v end.
Definition same_num (k : option Z) (u : Z * Q) (k' : option Z) (v : Z * Q) : Prop :=
  match k, k' with Some x, Some y => x = y | _, _ => level u v end.

Lemma num_fun : forall a k u k' u', num a k u -> num a k' u' -> k = k' /\ u = u'.
Proof.
  intros a k u k' u' H K. destruct H as [v z r Hz Sz Ez|f u Df Ef]; inversion K as [v' z' r' Hz' Sz' Ez'|f' u1 Df' Ef']; subst.
  - same. rewrite Ez in Ez'. injection Ez' as <-. split; reflexivity.
  - inversion Hz.
  - inversion Hz'.
  - split; [reflexivity|congruence].
Qed.

Lemma num_order : forall a b x y u v, num a (Some x) u -> num b (Some y) v -> x <= y -> before u v \/ level u v.
Proof.
  intros a b x y u v H K L. inversion H as [? ? r _ Sx Ex|]; inversion K as [? ? r' _ Sy Ey|]; subst.
  pose proof (nearest_mono x y r r' Sx Sy Ex Ey L) as M. on_line. destruct (Qlt_le_dec r r') as [|G]; [left; right; split; [reflexivity|assumption]|right; split; [reflexivity|lra]].
Qed.

Lemma num_double : forall a k u, num a k u -> exists f, float_of a f /\ double f /\ ext f = Some u /\ (k = None <-> is_float a).
Proof.
  intros a k u H. destruct H as [v z r Hz Sz Ez|f u Df Ef].
  - exists (nearest z). split; [constructor; exact Hz|]. split; [apply nearest_good|]. split; [exact Ez|]. split; [intro K; discriminate K|].
    intro K. destruct (int_not_float v z Hz K).
  - exists f. split; [constructor|]. split; [exact Df|]. split; [exact Ef|]. split; [intros _; eexists; reflexivity|reflexivity].
Qed.

Lemma proper_num : forall v f, proper v -> float_of v f -> ext f <> None -> exists k u, num v k u.
Proof.
  intros v f Hp Hf Ne. destruct (ext f) as [u|] eqn:E; [|congruence]. destruct Hf as [f|v z Hz].
  - exists None, u. constructor; assumption.
  - assert (Sz : small z) by (destruct Hz; try exact Hp; unfold small; lia).
    destruct (nearest_finite z Sz) as (r & Er & _). exists (Some z), (0, r). constructor; assumption.
Qed.

Lemma holds_iff : forall o A B C A' B' C', (A <-> A') -> (B <-> B') -> (C <-> C') -> (holds o A B C <-> holds o A' B' C').
Proof. intros o A B C A' B' C' HA HB HC. destruct o; cbn [holds]; tauto. Qed.

Lemma num_rel : forall o a b k u k' v, num a k u -> num b k' v ->
  exists P, compares o a b P /\ (P <-> holds o (less k u k' v) (same_num k u k' v) (less k' v k u)).
Proof.
  intros o a b k u k' v Ha Hb.
  destruct (num_double _ _ _ Ha) as (x & Fx & Dx & Ex & Ix), (num_double _ _ _ Hb) as (y & Fy & Dy & Ey & Iy).
  pose proof (ext_compare x y u v Dx Dy Ex Ey) as [L E]. pose proof (ext_compare y x v u Dy Dx Ey Ex) as [G _].
  destruct k as [i|]; [destruct k' as [j|]|].
  - inversion Ha; inversion Hb; subst. eexists. split; [eapply CmInt; eassumption|]. cbn [less same_num]. reflexivity.
  - eexists. split; [eapply CmFloat; [right; apply Iy; reflexivity|exact Fx|exact Fy]|]. cbn [less same_num]. apply holds_iff; assumption.
  - eexists. split; [eapply CmFloat; [left; apply Ix; reflexivity|exact Fx|exact Fy]|]. cbn [less same_num].
    destruct k'; cbn [less]; apply holds_iff; assumption.
Qed.

Lemma rel_of : forall W o a b r, rel_op o -> computes W o [a; b] (VBool r) -> exists P, compares o a b P /\ (r = true <-> P).
Proof.
  intros W o a b r Ho H.
  assert (U : forall v, computes W o [a; b] v -> VBool r = v).
  { intros v K. apply (IndexProofs.computes_unique W o [a; b]); [exact H|exact K| |cbn; lia].
    unfold rel_op in Ho. cbn [In] in Ho. repeat destruct Ho as [<-|Ho]; try contradiction; split; reflexivity. }
  assert (St : strict o) by (unfold rel_op, strict in *; cbn [In] in *; tauto).
  assert (Na : ~ failure a) by (intro F; specialize (U _ (strict_failure W o a b St (or_introl F))); discriminate U).
  assert (Nb : ~ failure b) by (intro F; specialize (U _ (strict_failure W o a b St (or_intror F))); discriminate U).
  destruct (compares_exact W o a b Ho Na Nb) as [[P HP] A]. exists P. split; [exact HP|].
  destruct (A P HP) as (r' & C & Hr). specialize (U _ C). injection U as <-. exact Hr.
Qed.

Lemma of_rel : forall W o a b P, rel_op o -> ~ failure a -> ~ failure b -> compares o a b P -> P -> computes W o [a; b] (VBool true).
Proof.
  intros W o a b P Ho Na Nb HP H. destruct (proj2 (compares_exact W o a b Ho Na Nb) P HP) as (r & C & Hr).
  rewrite (proj2 Hr H) in C. exact C.
Qed.

Lemma num_not_failure : forall a k u, num a k u -> ~ failure a.
Proof. intros a k u H (e & ->). inversion H as [? ? ? Hz|]. inversion Hz. Qed.

Lemma rel_num : forall W o a b k u k' v, rel_op o -> num a k u -> num b k' v ->
  (computes W o [a; b] (VBool true) <-> holds o (less k u k' v) (same_num k u k' v) (less k' v k u)).
Proof.
  intros W o a b k u k' v Ho Ha Hb. destruct (num_rel o a b k u k' v Ha Hb) as (P & HP & HPi). rewrite <- HPi. split.
  - intro H. destruct (proj2 (compares_exact W o a b Ho (num_not_failure _ _ _ Ha) (num_not_failure _ _ _ Hb)) P HP) as (r & C & Hr).
    apply Hr. assert (E : VBool r = VBool true); [|congruence].
    apply (IndexProofs.computes_unique W o [a; b]); [exact C|exact H| |cbn; lia].
    unfold rel_op in Ho. cbn [In] in Ho. repeat destruct Ho as [<-|Ho]; try contradiction; split; reflexivity.
  - intro H. eapply of_rel; [exact Ho|eapply num_not_failure; exact Ha|eapply num_not_failure; exact Hb|exact HP|exact H].
Qed.

Lemma int_small : forall a x, proper a -> int_of a x -> small x.
Proof. intros a x Pa Hx. destruct Hx; try exact Pa; unfold small; lia. Qed.
Lemma int_num : forall a x, proper a -> int_of a x -> exists r, num a (Some x) (0, r).
Proof.
  intros a x Pa Hx. pose proof (int_small a x Pa Hx) as Sx. destruct (nearest_finite x Sx) as (r & Er & _). exists r. constructor; assumption.
Qed.
Lemma float_double : forall a x, proper a -> float_of a x -> double x.
Proof. intros a x Pa Hx. destruct Hx; [exact Pa|apply nearest_good]. Qed.

(** a relation that holds is between strings or between numbers *)
Lemma rel_shape : forall W o a b, rel_op o -> proper a -> proper b -> computes W o [a; b] (VBool true) ->
  (exists s t, a = VStr s /\ b = VStr t /\ holds o (lex_lt s t) (s = t) (lex_lt t s)) \/
  exists k u k' v, num a k u /\ num b k' v.
Proof.
  intros W o a b Ho Pa Pb H. destruct (rel_of W o a b true Ho H) as (P & HP & HPi).
  assert (HH : P) by (apply HPi; reflexivity). destruct HP as [s t Ea Eb|x y Hx Hy|x y _ Hx Hy|].
  - left. exists s, t. auto.
  - right. destruct (int_num a x Pa Hx) as (r & Hr), (int_num b y Pb Hy) as (r' & Hr'). eauto 8.
  - right. pose proof (float_double a x Pa Hx) as Dx. pose proof (float_double b y Pb Hy) as Dy.
    assert (N : ext x <> None /\ ext y <> None).
    { assert (NL : f_lt x y -> ext x <> None /\ ext y <> None) by (intro K; apply lt_ext in K; [destruct K as (u & v & -> & -> & _); split; discriminate|assumption..]).
      assert (NE : f_eq x y -> ext x <> None /\ ext y <> None) by (intro K; apply eq_ext in K; [destruct K as (u & v & -> & -> & _); split; discriminate|assumption..]).
      assert (NG : f_lt y x -> ext x <> None /\ ext y <> None) by (intro K; apply lt_ext in K; [destruct K as (u & v & -> & -> & _); split; discriminate|assumption..]).
      unfold rel_op in Ho. cbn [In] in Ho. repeat destruct Ho as [<-|Ho]; try contradiction; cbn [holds] in HH; tauto. }
    destruct N as [Nx Ny]. destruct (proper_num a x Pa Hx Nx) as (k & u & Hk), (proper_num b y Pb Hy Ny) as (k' & v & Hv). eauto 8.
  - destruct HH.
Qed.

Lemma lex_trans : forall s t w, lex_lt s t -> lex_lt t w -> lex_lt s w.
Proof.
  intros s t w H. revert w. induction H as [c s|c d s t L|c s t H IH]; intros w K; inversion K; subst;
  solve [apply LxNil|apply LxByte; lia|apply LxSame; auto].
Qed.

Ltac mono_all := repeat match goal with
  | H : num ?a (Some ?x) ?u, K : num ?b (Some ?y) ?v |- _ =>
      lazymatch goal with
      | _ : _ -> before u v \/ level u v |- _ => fail
      | _ => pose proof (num_order a b x y u v H K)
      end
  end.

(** ** The laws *)
Lemma less_transitive : forall W a b c, proper a -> proper b -> proper c ->
  computes W OpLT [a; b] (VBool true) -> computes W OpLT [b; c] (VBool true) -> computes W OpLT [a; c] (VBool true).
Proof.
  intros W a b c Pa Pb Pc H K. assert (Ho : rel_op OpLT) by (left; reflexivity).
  destruct (rel_shape W OpLT a b Ho Pa Pb H) as [(s & t & -> & -> & L)|(k & u & k' & v & Na & Nb)].
  - destruct (rel_shape W OpLT _ c Ho Pb Pc K) as [(t' & w & E & -> & L')|(k & u & k' & v & Na & Nb)].
    + injection E as <-. eapply of_rel; [exact Ho|intros (e & E); discriminate E|intros (e & E); discriminate E|apply CmStr; reflexivity|].
      exact (lex_trans _ _ _ L L').
    + inversion Na as [? ? ? Hz|]; inversion Hz.
  - destruct (rel_shape W OpLT b c Ho Pb Pc K) as [(t' & w & -> & _)|(k1 & u1 & k'' & w & Nb' & Nc)].
    + inversion Nb as [? ? ? Hz|]; inversion Hz.
    + destruct (num_fun _ _ _ _ _ Nb Nb') as [<- <-].
      apply (rel_num W OpLT a b k u k' v Ho Na Nb) in H. apply (rel_num W OpLT b c k' v k'' w Ho Nb Nc) in K.
      apply (rel_num W OpLT a c k u k'' w Ho Na Nc). cbn [holds] in *.
      assert (T : before u v -> before v w -> before u w) by (on_line; intros; destruct H0, H1; [left; lia|left; lia|left; lia|right; split; [lia|lra]]).
      assert (BL : forall x y z : Z * Q, (before x y /\ (before y z \/ level y z)) \/ ((before x y \/ level x y) /\ before y z) -> before x z).
      { clear. on_line. intros x y z D. destruct D as [[[D|D] [[E|E]|E]]|[[[D|D]|D] [E|E]]]; try (left; lia); right; split; try lia; lra. }
      destruct k as [x|], k' as [y|], k'' as [z|]; cbn [less] in *; try (eapply T; eassumption); try lia.
      * apply BL with v. right. split; [eapply num_order; [exact Na|exact Nb|lia]|exact K].
      * destruct (Z_lt_le_dec x z) as [|G]; [assumption|exfalso]. pose proof (num_order _ _ _ _ _ _ Nc Na G) as M.
        assert (before u w) as B by (eapply T; eassumption).
        assert (before w w) as C by (eapply BL; right; split; [exact M|exact B]). clear - C. on_line. destruct C as [C|[_ C]]; [lia|lra].
      * apply BL with v. left. split; [exact H|eapply num_order; [exact Nb|exact Nc|lia]].
Qed.

Lemma f_eq_sym : forall x y, f_eq x y -> f_eq y x.
Proof. intros x y H. apply f_eqb_eq. rewrite f_eqb_sym. apply f_eqb_eq. exact H. Qed.

Definition mirror (o : op) : op := match o with OpLT => OpGT | OpGT => OpLT | OpLE => OpGE | _ => OpLE end.

Lemma mirrored : forall W o a b r, rel_op o -> computes W o [a; b] (VBool r) -> computes W (mirror o) [b; a] (VBool r).
Proof.
  intros W o a b r Ho H. destruct (rel_of W o a b r Ho H) as (P & HP & HPi).
  assert (Ho' : rel_op (mirror o)) by (unfold rel_op in *; cbn [In] in *; repeat destruct Ho as [<-|Ho]; try contradiction; cbn; tauto).
  assert (K : exists P', compares (mirror o) b a P' /\ (P <-> P')).
  { destruct HP as [s t Ea Eb|x y Hx Hy|x y Hf Hx Hy|HO].
    - eexists. split; [apply CmStr; eassumption|]. unfold rel_op in Ho. cbn [In] in Ho. repeat destruct Ho as [<-|Ho]; try contradiction; cbn [holds mirror]; intuition congruence.
    - eexists. split; [apply CmInt; eassumption|]. unfold rel_op in Ho. cbn [In] in Ho. repeat destruct Ho as [<-|Ho]; try contradiction; cbn [holds mirror]; intuition lia.
    - eexists. split; [apply CmFloat; [tauto|eassumption..]|]. pose proof (f_eq_sym x y). pose proof (f_eq_sym y x).
      unfold rel_op in Ho. cbn [In] in Ho. repeat destruct Ho as [<-|Ho]; try contradiction; cbn [holds mirror]; tauto.
    - eexists. split; [apply CmOther; tauto|reflexivity]. }
  destruct K as (P' & HP' & E).
  assert (St : strict o) by (unfold rel_op, strict in *; cbn [In] in *; tauto).
  assert (U : forall v, computes W o [a; b] v -> VBool r = v).
  { intros v K. apply (IndexProofs.computes_unique W o [a; b]); [exact H|exact K| |cbn; lia].
    unfold rel_op in Ho. cbn [In] in Ho. repeat destruct Ho as [<-|Ho]; try contradiction; split; reflexivity. }
  assert (Na : ~ failure a) by (intro F; specialize (U _ (strict_failure W o a b St (or_introl F))); discriminate U).
  assert (Nb : ~ failure b) by (intro F; specialize (U _ (strict_failure W o a b St (or_intror F))); discriminate U).
  destruct (proj2 (compares_exact W (mirror o) b a Ho' Nb Na) P' HP') as (r' & C & Hr).
  assert (r = r') as ->; [|exact C]. rewrite E, <- Hr in HPi. destruct r, r'; try reflexivity; [symmetry|]; apply HPi; reflexivity.
Qed.

Lemma less_mirror : forall W a b r,
  (computes W OpLT [a; b] (VBool r) <-> computes W OpGT [b; a] (VBool r)) /\
  (computes W OpLE [a; b] (VBool r) <-> computes W OpGE [b; a] (VBool r)).
Proof.
  intros W a b r. split; split; intro H.
  - exact (mirrored W OpLT a b r (or_introl eq_refl) H).
  - exact (mirrored W OpGT b a r (or_intror (or_intror (or_introl eq_refl))) H).
  - exact (mirrored W OpLE a b r (or_intror (or_introl eq_refl)) H).
  - exact (mirrored W OpGE b a r (or_intror (or_intror (or_intror (or_introl eq_refl)))) H).
Qed.

Lemma less_irreflexive : forall W a, ~ computes W OpLT [a; a] (VBool true).
Proof.
  intros W a H. destruct (rel_of W OpLT a a true (or_introl eq_refl) H) as (P & HP & HPi). apply proj1 in HPi. specialize (HPi eq_refl).
  destruct HP as [s t Ea Eb|x y Hx Hy|x y Hf Hx Hy|]; cbn [holds] in HPi.
  - rewrite Ea in Eb. injection Eb as <-. exact (lex_irrefl s HPi).
  - same. lia.
  - same. unfold f_lt in HPi. destruct y as [[]|[]| |[] m e]; try discriminate HPi; cbn [SFcompare] in HPi; rewrite Z.compare_refl, Pos.compare_refl in HPi; discriminate HPi.
  - exact HPi.
Qed.

Lemma eq_num : forall W a b k u k' v, num a k u -> num b k' v -> (eqVal W a b = true <-> same_num k u k' v).
Proof.
  intros W a b k u k' v Ha Hb.
  destruct (num_double _ _ _ Ha) as (x & Fx & Dx & Ex & Ix), (num_double _ _ _ Hb) as (y & Fy & Dy & Ey & Iy).
  pose proof (ext_compare x y u v Dx Dy Ex Ey) as [_ E].
  destruct (float_of_cvf W a x Fx) as [Ca _], (float_of_cvf W b y Fy) as [Cb _].
  assert (N : (exists p q, a = VBool p /\ b = VBool q) \/ eqVal W a b = eqNum W a b).
  { destruct Ha as [a z r Hz _ _|f u _ _]; destruct Hb as [b z' r' Hz' _ _|f' u' _ _];
    try (destruct Hz); try (destruct Hz'); try (right; reflexivity); left; eauto. }
  destruct N as [(p & q & -> & ->)|N].
  - inversion Ha as [? z r Hz|]; inversion Hb as [? z' r' Hz'|]; subst. cbn [same_num]. inversion Hz; inversion Hz'; subst; cbn; split; intro; try discriminate; try reflexivity; lia.
  - rewrite N. destruct (isFloat a || isFloat b) eqn:F.
    + rewrite eqNum_float by exact F. rewrite Ca, Cb, f_eqb_eq, E. 
      destruct k as [i|], k' as [j|]; cbn [same_num]; try reflexivity.
      exfalso. inversion Ha as [? ? ? Hi|]; inversion Hb as [? ? ? Hj|]; subst. destruct Hi, Hj; discriminate F.
    + unfold eqNum. rewrite F. apply orb_false_elim in F as [F1 F2].
      destruct Ha as [a z r Hz _ _|f u _ _]; [|discriminate F1]. destruct Hb as [b z' r' Hz' _ _|f' u' _ _]; [|discriminate F2].
      destruct (int_of_cvi W _ _ Hz) as (-> & _), (int_of_cvi W _ _ Hz') as (-> & _). cbn [same_num]. apply Z.eqb_eq.
Qed.

Lemma number_num : forall v, a_number v -> exists k u, num v k u.
Proof.
  intros v (Pv & (f & Hf) & Nv). apply (proper_num v f Pv Hf). intro E. apply ext_nan in E. subst f.
  inversion Hf as [|? z Hz]; subst; [congruence|]. destruct (nearest_finite z (int_small _ _ Pv Hz)) as (r & Er & _).
  match goal with H : nearest z = S754_nan |- _ => rewrite H in Er; discriminate Er end.
Qed.

Lemma numbers_trichotomy : forall W a b, a_number a -> a_number b -> exists l e g,
  computes W OpLT [a; b] (VBool l) /\ computes W OpEQ [a; b] (VBool e) /\ computes W OpGT [a; b] (VBool g) /\
  computes W OpLE [a; b] (VBool (negb g)) /\ computes W OpGE [a; b] (VBool (negb l)) /\
  ((l = true /\ e = false /\ g = false) \/ (l = false /\ e = true /\ g = false) \/ (l = false /\ e = false /\ g = true)).
Proof.
  intros W a b Ha Hb. destruct (number_num a Ha) as (k & u & Na), (number_num b Hb) as (k' & v & Nb).
  pose proof (num_not_failure _ _ _ Na) as Fa. pose proof (num_not_failure _ _ _ Nb) as Fb.
  assert (B : forall o, rel_op o -> exists r, computes W o [a; b] (VBool r) /\ (r = true <-> holds o (less k u k' v) (same_num k u k' v) (less k' v k u))).
  { intros o Ho. destruct (num_rel o a b k u k' v Na Nb) as (P & HP & HPi).
    destruct (proj2 (compares_exact W o a b Ho Fa Fb) P HP) as (r & C & Hr). exists r. split; [exact C|]. rewrite Hr. exact HPi. }
  destruct (B OpLT (or_introl eq_refl)) as (l & Cl & Hl). destruct (B OpLE (or_intror (or_introl eq_refl))) as (le & Cle & Hle).
  destruct (B OpGT (or_intror (or_intror (or_introl eq_refl)))) as (g & Cg & Hg).
  destruct (B OpGE (or_intror (or_intror (or_intror (or_introl eq_refl))))) as (ge & Cge & Hge). cbn [holds] in *.
  pose proof (eq_num W a b k u k' v Na Nb) as He.
  assert (T : (less k u k' v /\ ~ same_num k u k' v /\ ~ less k' v k u) \/ (~ less k u k' v /\ same_num k u k' v /\ ~ less k' v k u) \/
    (~ less k u k' v /\ ~ same_num k u k' v /\ less k' v k u)).
  { assert (T' : (before u v /\ ~ level u v /\ ~ before v u) \/ (~ before u v /\ level u v /\ ~ before v u) \/ (~ before u v /\ ~ level u v /\ before v u)).
    { on_line. destruct (Z_lt_le_dec (fst u) (fst v)); [left; repeat split; lia|]. destruct (Z_lt_le_dec (fst v) (fst u)); [right; right; repeat split; lia|].
      destruct (Qlt_le_dec (snd u) (snd v)); [left; split; [right; split; [lia|assumption]|split; [intros [_ K]; lra|intros [K|[_ K]]; [lia|lra]]]|].
      destruct (Qlt_le_dec (snd v) (snd u)); [right; right; split; [intros [K|[_ K]]; [lia|lra]|split; [intros [_ K]; lra|right; split; [lia|assumption]]]|].
      right; left. split; [intros [K|[_ K]]; [lia|lra]|]. split; [split; [lia|lra]|intros [K|[_ K]]; [lia|lra]]. }
    destruct k as [x|], k' as [y|]; cbn [less same_num]; try exact T'. lia. }
  exists l, (eqVal W a b), g. split; [exact Cl|]. split; [apply computes_eq; reflexivity|]. split; [exact Cg|].
  assert (le = negb g) as <-. { destruct le, g; try reflexivity; exfalso; cbn in *; intuition congruence. }
  assert (ge = negb l) as <-. { destruct ge, l; try reflexivity; exfalso; cbn in *; intuition congruence. }
  split; [exact Cle|]. split; [exact Cge|].
  destruct l, (eqVal W a b), g; try tauto; exfalso; cbn in *; intuition congruence.
Qed.

Lemma blurred_num : forall a b c x z u v w, num a (Some x) u -> num b None v -> num c (Some z) w -> x <> z ->
  level u v -> level v w -> blurred a b c.
Proof.
  intros a b c x z u v w Na Nb Nc N L L'. inversion Na as [? ? ? Hx _ Ex|]; inversion Nc as [? ? ? Hz _ Ez|]; inversion Nb as [|f ? Df Ef]; subst.
  exists x, z, f. split; [exact Hx|]. split; [exact Hz|]. split; [reflexivity|]. split; [exact N|]. split.
  - eapply ext_compare; [apply nearest_good|exact Df|exact Ex|exact Ef|exact L].
  - eapply ext_compare; [exact Df|apply nearest_good|exact Ef|exact Ez|exact L'].
Qed.

Lemma le_chain : forall W a b c, proper a -> proper b -> proper c ->
  computes W OpLE [a; b] (VBool true) -> computes W OpLE [b; c] (VBool true) ->
  computes W OpLE [a; c] (VBool true) \/ (blurred a b c /\ computes W OpGT [a; c] (VBool true)).
Proof.
  intros W a b c Pa Pb Pc H K. assert (Ho : rel_op OpLE) by (right; left; reflexivity).
  destruct (rel_shape W OpLE a b Ho Pa Pb H) as [(s & t & -> & -> & L)|(k & u & k' & v & Na & Nb)].
  - left. destruct (rel_shape W OpLE _ c Ho Pb Pc K) as [(t' & w & E & -> & L')|(k & u & k' & v & Na & Nb)].
    + injection E as <-. eapply of_rel; [exact Ho|intros (e & E); discriminate E|intros (e & E); discriminate E|apply CmStr; reflexivity|].
      cbn [holds] in *. destruct L as [L| ->]; [|exact L']. destruct L' as [L'| <-]; [left; exact (lex_trans _ _ _ L L')|left; exact L].
    + inversion Na as [? ? ? Hz|]; inversion Hz.
  - destruct (rel_shape W OpLE b c Ho Pb Pc K) as [(t' & w & -> & _)|(k1 & u1 & k'' & w & Nb' & Nc)].
    + inversion Nb as [? ? ? Hz|]; inversion Hz.
    + destruct (num_fun _ _ _ _ _ Nb Nb') as [<- <-].
      apply (rel_num W OpLE a b k u k' v Ho Na Nb) in H. apply (rel_num W OpLE b c k' v k'' w Ho Nb Nc) in K.
      assert (T : forall x y z : Z * Q, before x y \/ level x y -> before y z \/ level y z -> before x z \/ level x z).
      { clear. on_line. intros x y z [[D|[D D']]|[D D']] [[E|[E E']]|[E E']]; try (left; left; lia);
        try (left; right; split; [lia|lra]). right. split; [lia|]. transitivity (snd y); assumption. }
      assert (M : forall x y, k = Some x -> k' = Some y -> x < y \/ x = y -> before u v \/ level u v).
      { intros x y -> -> D. eapply num_order; [exact Na|exact Nb|lia]. }
      assert (M' : forall x y, k' = Some x -> k'' = Some y -> x < y \/ x = y -> before v w \/ level v w).
      { intros x y -> -> D. eapply num_order; [exact Nb|exact Nc|lia]. }
      assert (G : before u w \/ level u w).
      { apply T with v; [destruct k as [x|], k' as [y|]; cbn [holds less same_num] in H; try exact H; eapply M; eauto|].
        destruct k' as [x|], k'' as [y|]; cbn [holds less same_num] in K; try exact K; eapply M'; eauto. }
      destruct k as [x|]; [destruct k'' as [z|]|];
      try (left; apply (rel_num W OpLE a c _ u _ w Ho Na Nc); cbn [holds less same_num]; exact G).
      destruct (Z_le_gt_dec x z) as [D|D].
      * left. apply (rel_num W OpLE a c _ u _ w Ho Na Nc). cbn [holds less same_num]. lia.
      * destruct k' as [y|]; [cbn [holds less same_num] in H, K; lia|]. right. cbn [holds less same_num] in H, K.
        assert (O : before w u \/ level w u) by (eapply num_order; [exact Nc|exact Na|lia]).
        assert (LL : level u v /\ level v w).
        { clear - H K O. on_line. destruct H as [[H|[H H']]|[H H']], K as [[K|[K K']]|[K K']], O as [[O|[O O']]|[O O']]; try lia; try lra; repeat split; assumption. }
        split; [eapply blurred_num; try eassumption; [lia|apply LL|apply LL]|].
        apply (rel_num W OpGT a c _ u _ w (or_intror (or_intror (or_introl eq_refl))) Na Nc). cbn [holds less]. lia.
Qed.

Lemma eq_chain : forall W a b c, a_number a -> a_number b -> a_number c ->
  computes W OpEQ [a; b] (VBool true) -> computes W OpEQ [b; c] (VBool true) ->
  computes W OpEQ [a; c] (VBool true) \/ blurred a b c.
Proof.
  intros W a b c Ha Hb Hc H K.
  destruct (number_num a Ha) as (k & u & Na), (number_num b Hb) as (k' & v & Nb), (number_num c Hc) as (k'' & w & Nc).
  apply computes_eq in H, K. injection H as H. injection K as K. symmetry in H, K.
  apply (eq_num W a b k u k' v Na Nb) in H. apply (eq_num W b c k' v k'' w Nb Nc) in K.
  assert (R : same_num k u k'' w -> computes W OpEQ [a; c] (VBool true)).
  { intro S. apply computes_eq. f_equal. symmetry. apply (eq_num W a c k u k'' w Na Nc), S. }
  assert (T : level u v -> level v w -> level u w) by (clear; on_line; intros [A B] [C D]; split; [lia|transitivity (snd v); assumption]).
  assert (I : forall p q x y m n, num p (Some x) m -> num q (Some y) n -> x = y -> level m n).
  { intros p q x y m n Np Nq ->. inversion Np as [? ? ? _ _ E1|]; inversion Nq as [? ? ? _ _ E2|]; subst. rewrite E1 in E2. injection E2 as <-. split; reflexivity. }
  destruct k as [x|], k' as [y|], k'' as [z|]; cbn [same_num] in *; try (left; apply R; congruence); try (left; apply R, T; eauto; fail).
  destruct (Z.eq_dec x z) as [->|N]; [left; apply R; reflexivity|right; eapply blurred_num; eassumption].
Qed.

Definition y_int (z : Z) : val := VInt64 (9007199254740992 + z).
Definition y_double : val := VFloat (S754_finite false 4503599627370496 1).
Lemma y_numbers : a_number (y_int 0) /\ a_number (y_int 1) /\ a_number y_double.
Proof.
  split; [|split]; (split; [cbn; try lia; reflexivity|]); split; try discriminate; eexists; [apply FoInt, IoInt64|apply FoInt, IoInt64|apply FoFloat].
Qed.
Lemma not_transitive : exists a b c, a_number a /\ a_number b /\ a_number c /\ forall W,
  computes W OpEQ [a; b] (VBool true) /\ computes W OpEQ [b; c] (VBool true) /\ computes W OpEQ [a; c] (VBool false) /\
  computes W OpLE [a; b] (VBool true) /\ computes W OpLE [b; c] (VBool true) /\ computes W OpLE [a; c] (VBool false).
Proof.
  exists (y_int 1), y_double, (y_int 0). destruct y_numbers as (N0 & N1 & Nd). split; [exact N1|]. split; [exact Nd|]. split; [exact N0|].
  intro W. split; [apply computes_eq; reflexivity|]. split; [apply computes_eq; reflexivity|]. split; [apply computes_eq; reflexivity|].
  split; [|split]; apply computes2; auto; reflexivity.
Qed.
