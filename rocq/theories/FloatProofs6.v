(** min, max, clamp, fmod and trunc. *)
From Coq Require Import ZArith Lia Bool List SpecFloat.
From Verif Require Import Bits FpProofs FloatModel FloatSpec FloatProofs FloatProofs2 FloatProofs3 FloatProofs4 FloatProofs5.
Import ListNotations.
Local Open Scope Z_scope.

Section M.
Variable F : fmt.
Hypothesis W : wf F.
Notation w1 := (width F - 1).

Lemma number_cases x : number F x -> pattern F x /\ (finite F x \/ infinite F x).
Proof. intros [Px Nx]. split; [exact Px|]. destruct (trichotomy F W x) as [?|[?|?]]; tauto. Qed.

Lemma le_dec a b : number F a -> number F b -> (flt F a b = true -> value_le F a b) /\ (flt F a b = false -> value_le F b a).
Proof.
  intros Na Nb. destruct (number_cases a Na) as [Pa Ca]. destruct (number_cases b Nb) as [Pb Cb]. unfold value_le, negative.
  destruct Ca as [Ca|Ca], Cb as [Cb|Cb].
  - rewrite (flt_val F W a b Pa Ca Pb Cb). split; intros H; right; right; repeat split; auto; [apply Z.ltb_lt in H|apply Z.ltb_ge in H]; lia.
  - unfold flt, SFltb. rewrite (decode_inf F W b Pb Cb). destruct (Z.leb_spec (2 ^ w1) b) as [L|L];
      destruct (decode_fin F W a Pa Ca) as [(s & ->)|(s & p & e & ->)]; cbn; split; intros H; try discriminate; auto; right; left; (split; [exact Cb|lia]).
  - unfold flt, SFltb. rewrite (decode_inf F W a Pa Ca). destruct (Z.leb_spec (2 ^ w1) a) as [L|L];
      destruct (decode_fin F W b Pb Cb) as [(s & ->)|(s & p & e & ->)]; cbn; split; intros H; try discriminate; auto; right; left; (split; [exact Ca|lia]).
  - unfold flt, SFltb. rewrite (decode_inf F W a Pa Ca), (decode_inf F W b Pb Cb).
    destruct (Z.leb_spec (2 ^ w1) a) as [L|L], (Z.leb_spec (2 ^ w1) b) as [M|M]; cbn; split; intros H; try discriminate; auto;
      try (left; split; [assumption|lia]); right; left; (split; [assumption|lia]).
Qed.
Lemma le_refl a : number F a -> value_le F a a.
Proof.
  intros Na. destruct (number_cases a Na) as [Pa [C|C]]; unfold value_le, negative; [right; right; repeat split; auto; lia|].
  destruct (Z.leb_spec (2 ^ w1) a); [left|right; left]; split; auto; lia.
Qed.
Lemma le_trans a b c : number F b -> value_le F a b -> value_le F b c -> value_le F a c.
Proof.
  unfold value_le, number, infinite, finite, negative, not_a_number. intros. intuition (try lia).
Qed.
Lemma not_nan a : number F a -> isnan F a = false.
Proof. intros [Pa Na]. destruct (isnan F a) eqn:E; [|reflexivity]. apply (isnan_ok F W a Pa) in E. contradiction. Qed.

Definition smaller (mm : minmax) : Prop := forall a b, number F a -> number F b ->
  number F (fst mm F a b) /\ (fst mm F a b = a \/ fst mm F a b = b) /\ value_le F (fst mm F a b) a /\ value_le F (fst mm F a b) b.
Definition larger (mm : minmax) : Prop := forall a b, number F a -> number F b ->
  number F (snd mm F a b) /\ (snd mm F a b = a \/ snd mm F a b = b) /\ value_le F a (snd mm F a b) /\ value_le F b (snd mm F a b).

Lemma equal_bits a b : number F a -> number F b -> flt F a b = false -> flt F b a = false ->
  (Z.lor a b = a \/ Z.lor a b = b) /\ (Z.land a b = a \/ Z.land a b = b).
Proof.
  intros Na Nb L1 L2. pose proof (le_dec a b Na Nb) as [_ D1]. pose proof (le_dec b a Nb Na) as [_ D2]. specialize (D1 L1). specialize (D2 L2).
  destruct (number_cases a Na) as [Pa Ca]. destruct (number_cases b Nb) as [Pb Cb].
  assert (Q : a = b \/ (units F a = 0 /\ units F b = 0 /\ finite F a /\ finite F b)).
  { destruct Ca as [Ca|Ca], Cb as [Cb|Cb].
    - assert (EU : units F a = units F b) by (unfold value_le, infinite, finite in *; lia).
      (* finite numbers with equal value *)
      destruct (Z.eq_dec (units F a) 0) as [Z0|NZ]; [right; repeat split; auto; lia|]. left.
      pose proof (fraction_range F W a). pose proof (fraction_range F W b). pose proof (exponent_range F W a). pose proof (exponent_range F W b). pose proof (pow_mw F W).
      assert (SA : (2 ^ w1 <=? a) = (2 ^ w1 <=? b) /\ magnitude F a = magnitude F b).
      { pose proof (magnitude_nonneg F W a). pose proof (magnitude_nonneg F W b). unfold units in *. destruct (2 ^ w1 <=? a), (2 ^ w1 <=? b); split; auto; lia. }
      destruct SA as [SA MA].
      assert (EF : exponent F a = exponent F b /\ fraction F a = fraction F b).
      { revert MA. unfold magnitude.
        assert (MON : forall e1 e2 f1 f2, 0 <= f1 < 2 ^ mw F -> 0 <= f2 -> 0 < e1 -> e1 < e2 -> (2 ^ mw F + f1) * 2 ^ (e1 - 1) < (2 ^ mw F + f2) * 2 ^ (e2 - 1)).
        { intros e1 e2 f1 f2 H1' H2' H3' H4'. replace (e2 - 1) with ((e1 - 1) + (1 + (e2 - e1 - 1))) by lia. rewrite !Z.pow_add_r by lia. change (2 ^ 1) with 2.
          pose proof (pow2_pos (e1 - 1) ltac:(lia)). pose proof (pow2_pos (e2 - e1 - 1) ltac:(lia)).
          assert ((2 ^ mw F + f1) < (2 ^ mw F + f2) * (2 * 2 ^ (e2 - e1 - 1))) by nia.
          replace ((2 ^ mw F + f2) * (2 ^ (e1 - 1) * (2 * 2 ^ (e2 - e1 - 1)))) with (((2 ^ mw F + f2) * (2 * 2 ^ (e2 - e1 - 1))) * 2 ^ (e1 - 1)) by ring.
          apply Z.mul_lt_mono_pos_r; lia. }
        assert (ZB : forall e f, 0 <= f -> 0 < e -> 2 ^ mw F <= (2 ^ mw F + f) * 2 ^ (e - 1)) by (intros e f Hf He; pose proof (pow2_pos (e - 1) ltac:(lia)); nia).
        destruct (Z.eqb_spec (exponent F a) 0) as [Ea|Ea], (Z.eqb_spec (exponent F b) 0) as [Eb|Eb]; intros MA.
        - lia.
        - specialize (ZB (exponent F b) (fraction F b)). lia.
        - specialize (ZB (exponent F a) (fraction F a)). lia.
        - destruct (Z.lt_trichotomy (exponent F a) (exponent F b)) as [L|[L|L]].
          + specialize (MON (exponent F a) (exponent F b) (fraction F a) (fraction F b)). lia.
          + split; [exact L|]. rewrite L in MA. pose proof (pow2_pos (exponent F b - 1) ltac:(lia)). apply Z.mul_reg_r in MA; lia.
          + specialize (MON (exponent F b) (exponent F a) (fraction F b) (fraction F a)). lia. }
      rewrite (fields F W a Pa), (fields F W b Pb), SA. destruct EF as [-> ->]. reflexivity.
    - exfalso. unfold value_le, infinite, finite, negative in *. lia.
    - exfalso. unfold value_le, infinite, finite, negative in *. lia.
    - left. rewrite (fields F W a Pa), (fields F W b Pb). destruct Ca as [X1 Y1], Cb as [X2 Y2]. rewrite X1, Y1, X2, Y2.
      assert (SA : (2 ^ w1 <=? a) = (2 ^ w1 <=? b)); [|rewrite SA; reflexivity].
      unfold value_le, infinite, finite, negative in *. destruct (Z.leb_spec (2 ^ w1) a), (Z.leb_spec (2 ^ w1) b); auto; exfalso; lia. }
  destruct Q as [->|(Z1 & Z2 & _)]; [rewrite Z.lor_diag, Z.land_diag; tauto|].
  apply (units_zero F W a Pa) in Z1. apply (units_zero F W b Pb) in Z2.
  pose proof (fields F W a Pa) as FA. pose proof (fields F W b Pb) as FB. destruct Z1 as [X1 Y1], Z2 as [X2 Y2]. rewrite X1, Y1 in FA. rewrite X2, Y2 in FB.
  rewrite !Z.mul_0_l, !Z.add_0_r in *.
  destruct (2 ^ w1 <=? a); destruct (2 ^ w1 <=? b); rewrite FA, FB; rewrite ?Z.lor_diag, ?Z.land_diag, ?Z.lor_0_r, ?Z.land_0_r, ?Z.lor_0_l, ?Z.land_0_l; tauto.
Qed.

Lemma mm_ok mm : In mm [mm_x86; mm_avx; mm_unord; mm_num; mm_imum] -> smaller mm /\ larger mm.
Proof.
  intros H. unfold smaller, larger.
  assert (G : forall a b, number F a -> number F b ->
    (fst mm F a b = a /\ value_le F a b \/ fst mm F a b = b /\ value_le F b a) /\ (snd mm F a b = a /\ value_le F b a \/ snd mm F a b = b /\ value_le F a b)).
  { intros a b Na Nb. destruct (le_dec a b Na Nb) as [T1 T2]. destruct (le_dec b a Nb Na) as [S1 S2].
    pose proof (not_nan a Na) as NA. pose proof (not_nan b Nb) as NB. pose proof (equal_bits a b Na Nb) as EB.
    destruct H as [<-|[<-|[<-|[<-|[<-|[]]]]]]; cbn [fst snd mm_x86 mm_avx mm_unord mm_num mm_imum];
      unfold min_olt, max_ogt, max_ogt_swapped, min_ult, max_ugt, min_num, max_num, min_imum, max_imum, unordered; rewrite ?NA, ?NB; cbn [orb];
      destruct (flt F a b) eqn:E1, (flt F b a) eqn:E2; cbn [orb]; split; tauto. }
  split; intros a b Na Nb; destruct (G a b Na Nb) as [[[Q L]|[Q L]] [[Q' L']|[Q' L']]]; rewrite ?Q, ?Q'; repeat split; auto using le_refl; try apply Na; try apply Nb.
Qed.

Lemma clamp_ok mm v low high : smaller mm -> larger mm -> number F v -> number F low -> number F high -> value_le F low high ->
  let r := clamp mm F v low high in
  number F r /\ (r = v \/ r = low \/ r = high) /\ value_le F low r /\ value_le F r high /\
  (value_le F low v -> value_le F v high -> same_value F r v).
Proof.
  intros SM LM Nv Nl Nh LH r. destruct (LM v low Nv Nl) as (N1 & O1 & V1 & V2). set (m := snd mm F v low) in *.
  destruct (SM m high N1 Nh) as (N2 & O2 & V3 & V4). change (fst mm F m high) with r in *.
  split; [exact N2|]. split; [intuition congruence|]. split; [|split; [exact V4|]].
  - destruct O2 as [->| ->]; [exact V2|exact LH].
  - intros A B. unfold same_value. assert (MV : value_le F m v) by (destruct O1 as [->| ->]; [apply le_refl; exact Nv|exact A]).
    split; [apply (le_trans r m v N1 V3 MV)|]. destruct O2 as [->| ->]; [exact V1|exact B].
Qed.

(** fmod *)
Lemma isnan_false x : pattern F x -> ~ not_a_number F x -> isnan F x = false.
Proof. intros P N. apply not_nan. split; assumption. Qed.
Lemma quiet_nan_ok neg : pattern F (quiet_nan F neg) /\ not_a_number F (quiet_nan F neg) /\ (negative F (quiet_nan F neg) <-> neg = true).
Proof.
  unfold quiet_nan. destruct (encode_nan F W) as (Pn & Nn & Sn). apply Z.leb_gt in Sn. pose proof (w1_nonneg F W) as W0. destruct neg.
  - assert (D : Z.land (encode F S754_nan) (2 ^ w1) = 0) by (apply land_low_add; [exact W0|split; [apply Pn|exact Sn]]).
    rewrite <- Z.lxor_lor by exact D. destruct (join_sign F W (encode F S754_nan) (2 ^ w1) (conj (proj1 Pn) Sn) (or_intror eq_refl)) as (P3 & X3 & R3 & S3 & _).
    split; [exact P3|]. split; [unfold not_a_number in *; rewrite X3, R3; exact Nn|]. unfold negative. pose proof (pow2_pos w1 W0).
    replace (2 ^ w1 =? 0) with false in S3 by (symmetry; apply Z.eqb_neq; lia). cbn in S3. apply Z.leb_le in S3. tauto.
  - rewrite Z.lor_0_r. split; [exact Pn|]. split; [exact Nn|]. unfold negative. split; [lia|discriminate].
Qed.
Lemma sign_test x : pattern F x -> negb (signbits F x =? 0) = (2 ^ w1 <=? x).
Proof.
  intros Px. rewrite (signbits_ok F W x Px). pose proof (pow2_pos w1 (w1_nonneg F W)). destruct (2 ^ w1 <=? x); [|reflexivity].
  replace (2 ^ w1 =? 0) with false by (symmetry; apply Z.eqb_neq; lia). reflexivity.
Qed.
Lemma feq_zero_iff x : pattern F x -> feq F x 0 = true <-> finite F x /\ units F x = 0.
Proof.
  intros Px. destruct (zero_val F W) as (P0 & F0 & U0). destruct (trichotomy F W x) as [C|[C|C]].
  - rewrite (feq_val F W x 0 Px C P0 F0), U0, Z.eqb_eq. tauto.
  - unfold feq, SFeqb. rewrite (decode_inf F W x Px C). destruct (decode_fin F W 0 P0 F0) as [(s & ->)|(s & p & e & ->)];
      destruct (2 ^ w1 <=? x); cbn; split; try discriminate; unfold infinite, finite in *; lia.
  - destruct (flt_nan F W x 0 Px C) as (_ & _ & _ & _ & ->). unfold not_a_number, finite in *. split; [discriminate|lia].
Qed.
Lemma eq_bool (a : bool) (Q : Prop) : (a = true <-> Q) -> ~ Q -> a = false.
Proof. destruct a; [tauto|reflexivity]. Qed.

Lemma fmod_special rcp trunc x y : pattern F x -> pattern F y ->
  let r := fmod F rcp trunc x y in
  (not_a_number F x \/ not_a_number F y \/ units F y = 0 \/ (infinite F x /\ finite F y) -> pattern F r /\ not_a_number F r /\ (negative F r <-> negative F x)) /\
  (finite F x -> infinite F y -> r = x) /\
  (finite F x -> units F x = 0 -> finite F y -> units F y <> 0 -> r = x).
Proof.
  intros Px Py r. unfold r, fmod. rewrite (sign_test x Px).
  assert (QN : let q := quiet_nan F (2 ^ w1 <=? x) in pattern F q /\ not_a_number F q /\ (negative F q <-> negative F x)).
  { destruct (quiet_nan_ok (2 ^ w1 <=? x)) as (A & B & C). cbv zeta. split; [exact A|]. split; [exact B|]. rewrite C. unfold negative. rewrite Z.leb_le. tauto. }
  set (q := quiet_nan F (2 ^ w1 <=? x)) in *. clearbody q. cbv zeta in QN.
  pose proof (isnan_ok F W x Px) as NX. pose proof (isnan_ok F W y Py) as NY. pose proof (isinf_ok F W x Px) as IX. pose proof (isinf_ok F W y Py) as IY.
  pose proof (feq_zero_iff x Px) as ZX. pose proof (feq_zero_iff y Py) as ZY.
  assert (ZF : forall z, pattern F z -> units F z = 0 -> finite F z) by (intros z Pz Hz; apply (units_zero F W z Pz) in Hz; unfold finite; pose proof (pow_ew F W); lia).
  specialize (ZF y Py).
  destruct (isnan F x) eqn:E1; cbn [orb]; [split; [intros _; exact QN|]; unfold infinite, finite, not_a_number in *; split; lia|].
  destruct (isnan F y) eqn:E2; cbn [orb]; [split; [intros _; exact QN|]; unfold infinite, finite, not_a_number in *; split; lia|].
  destruct (feq F y 0) eqn:E3; cbn [orb]; [split; [intros _; exact QN|]; unfold infinite, finite, not_a_number in *; split; lia|].
  assert (X1 : ~ not_a_number F x) by (intros K; apply NX in K; discriminate). assert (Y1 : ~ not_a_number F y) by (intros K; apply NY in K; discriminate).
  destruct (isinf F y) eqn:E4.
  { split; [|split]; auto. intros [K|[K|[K|[_ K]]]]; try contradiction; exfalso; unfold infinite, finite in *; [specialize (ZF K); lia|lia]. }
  destruct (isinf F x) eqn:E5.
  { split; [intros _; exact QN|]. unfold infinite, finite in *; split; intros; try lia. }
  assert (X2 : ~ infinite F x) by (intros K; apply IX in K; discriminate). assert (Y2 : ~ infinite F y) by (intros K; apply IY in K; discriminate).
  split; [|split].
  - intros [K|[K|[K|[K _]]]]; try contradiction. exfalso. assert (false = true) by (apply ZY; auto). discriminate.
  - intros _ K. contradiction.
  - intros A B _ _. assert (Q : feq F x 0 = true) by (apply ZX; auto). rewrite Q. reflexivity.
Qed.
End M.
