(** Infinities and NaN; the rounding functions for float16; trunc for double on Xe. *)
From Coq Require Import ZArith Lia Bool SpecFloat.
From Verif Require Import Bits FpProofs FloatModel FloatSpec FloatProofs FloatProofs2 FloatProofs3.
Local Open Scope Z_scope.

Section M.
Variable F : fmt.
Hypothesis W : wf F.
Notation P := (prec F).
Notation E := (emx F).
Notation U := (unit1 F).
Notation w1 := (width F - 1).

Lemma decode_inf x : pattern F x -> infinite F x -> decode F x = S754_infinity (2 ^ w1 <=? x).
Proof.
  intros Px [X R]. unfold decode. rewrite decode_sign by auto. fold (exponent F x) (fraction F x). rewrite X, R. pose proof (pow_ew F W).
  replace (2 ^ ew F - 1 =? 0) with false by (symmetry; apply Z.eqb_neq; lia). rewrite Z.eqb_refl. reflexivity.
Qed.
Lemma decode_nan x : pattern F x -> not_a_number F x -> decode F x = S754_nan.
Proof.
  intros Px [X R]. unfold decode. rewrite decode_sign by auto. fold (exponent F x) (fraction F x). rewrite X. pose proof (pow_ew F W).
  replace (2 ^ ew F - 1 =? 0) with false by (symmetry; apply Z.eqb_neq; lia). rewrite Z.eqb_refl.
  replace (fraction F x =? 0) with false by (symmetry; apply Z.eqb_neq; exact R). reflexivity.
Qed.
Lemma encode_inf s : pattern F (encode F (S754_infinity s)) /\ infinite F (encode F (S754_infinity s)) /\ (2 ^ w1 <=? encode F (S754_infinity s)) = s.
Proof.
  pose proof (pow_ew F W). pose proof (pow_mw F W). destruct (of_fields F W s (2 ^ ew F - 1) 0) as (P0 & X0 & R0 & S0); [lia|lia|].
  cbn [encode]. rewrite Z.add_0_r in *. repeat split; auto; apply P0.
Qed.
Lemma encode_nan : pattern F (encode F S754_nan) /\ not_a_number F (encode F S754_nan) /\ (2 ^ w1 <=? encode F S754_nan) = false.
Proof.
  pose proof (pow_ew F W). pose proof (pow_mw F W). assert (M2 : 2 ^ mw F = 2 * 2 ^ (mw F - 1)).
  { rewrite <- Z.pow_succ_r by (destruct W as (? & ? & ?); lia). f_equal. lia. }
  assert (M1 : 0 < 2 ^ (mw F - 1)) by (apply pow2_pos; destruct W as (? & ? & ?); lia).
  destruct (of_fields F W false (2 ^ ew F - 1) (2 ^ (mw F - 1))) as (P0 & X0 & R0 & S0); [lia|lia|].
  cbn [encode]. cbn [sign_of] in *. rewrite Z.add_0_l in *. split; [exact P0|]. unfold not_a_number. split; [split; [exact X0|rewrite R0; lia]|exact S0].
Qed.

Lemma decode_fin x : pattern F x -> finite F x -> (exists s, decode F x = S754_zero s) \/ exists s p e, decode F x = S754_finite s p e.
Proof.
  intros Px Fx. destruct (decode_val F W x Px Fx) as [(s & -> & _)|(s & p & t & -> & _)]; [left|right]; eauto.
Qed.

Lemma add_inf a K : 0 <= a < 2 ^ w1 -> infinite F a -> pattern F K -> finite F K -> fadd F a K = encode F (S754_infinity false).
Proof.
  intros Ha Ia PK FK. unfold fadd. rewrite (decode_inf a) by (auto; unfold pattern; rewrite (pow_w F W); lia).
  replace (2 ^ w1 <=? a) with false by (symmetry; apply Z.leb_gt; lia).
  destruct (decode_fin K PK FK) as [(s & ->)|(s & p & e & ->)]; reflexivity.
Qed.
Lemma add_nan a K : pattern F a -> not_a_number F a -> fadd F a K = encode F S754_nan.
Proof. intros Pa Na. unfold fadd. rewrite (decode_nan a Pa Na). reflexivity. Qed.

Lemma finite_flip K : 0 <= K < 2 ^ w1 -> finite F K -> pattern F (Z.lxor K (2 ^ w1)) /\ finite F (Z.lxor K (2 ^ w1)).
Proof.
  intros HK FK. destruct (join_sign F W K (2 ^ w1) HK (or_intror eq_refl)) as (P3 & X3 & _). split; [exact P3|]. unfold finite in *. rewrite X3. exact FK.
Qed.

Lemma magic_inf K x : 0 <= K < 2 ^ w1 -> finite F K -> pattern F x -> infinite F x -> magic_round F K x = x.
Proof.
  intros HK FK Px Ix. destruct (split_sign F W x Px) as (Ha & Ea & Ra & _ & _ & C). unfold magic_round.
  set (sign := Z.land x (2 ^ w1)) in *. set (a := Z.lxor x sign) in *.
  assert (PK : pattern F K) by (unfold pattern; rewrite (pow_w F W); lia).
  assert (Ia : infinite F a) by (unfold infinite in *; rewrite Ea, Ra; exact Ix).
  destruct (finite_flip K HK FK) as [P2 F2].
  destruct (encode_inf false) as (PI & II & SI). apply Z.leb_gt in SI.
  rewrite (add_inf a K Ha Ia PK FK), (add_inf _ _ (conj (proj1 PI) SI) II P2 F2).
  assert (Q : encode F (S754_infinity false) = a).
  { assert (Pa : pattern F a) by (unfold pattern; rewrite (pow_w F W); lia).
    rewrite (fields F W a Pa), (fields F W _ PI). destruct II as [-> ->]. destruct Ia as [-> ->].
    replace (2 ^ w1 <=? a) with false by (symmetry; apply Z.leb_gt; lia). replace (2 ^ w1 <=? encode F _) with false by (symmetry; apply Z.leb_gt; lia). reflexivity. }
  rewrite Q. unfold a. rewrite Z.lxor_assoc, Z.lxor_nilpotent, Z.lxor_0_r. reflexivity.
Qed.

Lemma magic_nan K x : pattern F x -> not_a_number F x -> pattern F (magic_round F K x) /\ not_a_number F (magic_round F K x).
Proof.
  intros Px Nx. destruct (split_sign F W x Px) as (Ha & Ea & Ra & _ & _ & C). unfold magic_round.
  set (sign := Z.land x (2 ^ w1)) in *. set (a := Z.lxor x sign) in *.
  assert (Pa : pattern F a) by (unfold pattern; rewrite (pow_w F W); lia).
  assert (Na : not_a_number F a) by (unfold not_a_number in *; rewrite Ea, Ra; exact Nx).
  destruct encode_nan as (PI & II & SI). apply Z.leb_gt in SI. rewrite (add_nan a K Pa Na), (add_nan _ _ PI II).
  destruct (join_sign F W (encode F S754_nan) sign (conj (proj1 PI) SI) ltac:(tauto)) as (P3 & X3 & R3 & _).
  split; [exact P3|]. unfold not_a_number in *. rewrite X3, R3. exact II.
Qed.

(** Comparisons with infinities and NaN. *)
Lemma flt_nan a b : pattern F a -> not_a_number F a -> flt F a b = false /\ flt F b a = false /\ fge F a b = false /\ fge F b a = false /\ feq F a b = false.
Proof. intros Pa Na. unfold flt, fge, feq, SFltb, SFleb, SFeqb. rewrite (decode_nan a Pa Na). cbn [SFcompare]. destruct (decode F b) as [?|?| |? ? ?]; cbn; auto. Qed.

Lemma fge_inf a b : pattern F a -> infinite F a -> (2 ^ w1 <=? a) = false -> pattern F b -> finite F b -> fge F a b = true.
Proof.
  intros Pa Ia Sa Pb Fb. unfold fge, SFleb. rewrite (decode_inf a Pa Ia), Sa. destruct (decode_fin b Pb Fb) as [(s & ->)|(s & p & e & ->)]; reflexivity.
Qed.

(** From 2^mw on every number is an integer. *)
Lemma large_integer x : pattern F x -> finite F x -> 2 ^ mw F * U <= Z.abs (units F x) -> exists r, units F x = r * U.
Proof.
  intros Px Fx H. pose proof (unit1_pos F W) as UP. pose proof (fraction_range F W x) as RF. pose proof (pow_mw F W) as PM. pose proof (exponent_range F W x) as RE.
  assert (M : exists r, magnitude F x = r * U).
  { assert (HM : 2 ^ mw F * U <= magnitude F x).
    { revert H. unfold units. pose proof (magnitude_nonneg F W x). destruct (2 ^ w1 <=? x); rewrite ?Z.abs_opp, Z.abs_eq by lia; auto. }
    unfold magnitude in *. destruct (Z.eqb_spec (exponent F x) 0) as [X|X]; [nia|].
    assert (L : - emin P E <= exponent F x - 1).
    { pose proof (em_neg F W). apply Z.lt_succ_r. apply (Z.pow_lt_mono_r_iff 2); [lia|lia|].
      rewrite <- Z.add_1_r, Z.pow_add_r by lia. rewrite <- (unit1_em F). change (2 ^ 1) with 2. nia. }
    exists ((2 ^ mw F + fraction F x) * 2 ^ (exponent F x - 1 - - emin P E)). rewrite (unit1_em F). rewrite <- Z.mul_assoc, <- Z.pow_add_r by (pose proof (em_neg F W); lia). f_equal. f_equal. lia. }
  destruct M as [r M]. unfold units. rewrite M. destruct (2 ^ w1 <=? x); [exists (- r); ring|exists r; reflexivity].
Qed.
End M.

(** round for float16. *)
Lemma wf16 : wf f16. Proof. apply format_wf. left. reflexivity. Qed.
Lemma K16 : 0 <= bits_1024 < 2 ^ (width f16 - 1) /\ finite f16 bits_1024 /\ units f16 bits_1024 = 1024 * unit1 f16.
Proof. unfold finite. repeat split; try (vm_compute; congruence). Qed.

Lemma half_varying_uniform x : round_half_varying x = round_half_uniform x.
Proof. unfold round_half_varying, round_half_uniform. destruct (fge f16 _ bits_1024); reflexivity. Qed.

Lemma half_magic x : round_half_uniform x =
  if fge f16 (Z.lxor x (Z.land x (2 ^ (width f16 - 1)))) bits_1024 then x else magic_round f16 bits_1024 x.
Proof. unfold round_half_uniform, magic_round. replace (width f16 - 1) with 15 by reflexivity. reflexivity. Qed.

Lemma half_ok x : pattern f16 x -> finite f16 x ->
  exists r, is_integer f16 (round_half_uniform x) r /\ nearest_even (units f16 x) (unit1 f16) r /\ (negative f16 (round_half_uniform x) <-> negative f16 x).
Proof.
  intros Px Fx. pose proof wf16 as W. destruct K16 as (HK & FK & UK). destruct (split_sign f16 W x Px) as (Ha & Ea & _ & _ & Ua & C).
  rewrite half_magic. set (a := Z.lxor x (Z.land x (2 ^ (width f16 - 1)))) in *.
  assert (PK : pattern f16 bits_1024) by (unfold pattern; rewrite (pow_w f16 W); lia).
  assert (Pa : pattern f16 a) by (unfold pattern; rewrite (pow_w f16 W); lia).
  assert (Fa : finite f16 a) by (unfold finite in *; rewrite Ea; exact Fx).
  rewrite (fge_val f16 W a _ Pa Fa PK FK), UK, Ua. pose proof (unit1_pos f16 W) as UP.
  destruct (Z.leb_spec (1024 * unit1 f16) (Z.abs (units f16 x))) as [L|L].
  - destruct (large_integer f16 W x Px Fx L) as [r R]. exists r. split; [repeat split; auto; apply Px|]. split; [|reflexivity].
    unfold nearest_even. rewrite R, Z.sub_diag. cbn [Z.abs]. lia.
  - destruct (magic_round_ok f16 W bits_1024 1024 HK FK UK ltac:(vm_compute; split; congruence) eq_refl x Px Fx) as (r & I1 & I2 & I3 & _).
    + change (2 ^ prec f16 - 1024) with 1024. lia.
    + exists r. split; [exact I1|]. split; [exact I2|exact I3].
Qed.

Lemma half_inf x : pattern f16 x -> infinite f16 x -> round_half_uniform x = x.
Proof.
  intros Px Ix. pose proof wf16 as W. destruct K16 as (HK & FK & UK). destruct (split_sign f16 W x Px) as (Ha & Ea & Ra & _ & Ua & C).
  rewrite half_magic. set (a := Z.lxor x (Z.land x (2 ^ (width f16 - 1)))) in *.
  assert (PK : pattern f16 bits_1024) by (unfold pattern; rewrite (pow_w f16 W); lia).
  assert (Pa : pattern f16 a) by (unfold pattern; rewrite (pow_w f16 W); lia).
  assert (Ia : infinite f16 a) by (unfold infinite in *; rewrite Ea, Ra; exact Ix).
  rewrite (fge_inf f16 W a _ Pa Ia) by (auto; apply Z.leb_gt; lia). reflexivity.
Qed.
Lemma half_nan x : pattern f16 x -> not_a_number f16 x -> pattern f16 (round_half_uniform x) /\ not_a_number f16 (round_half_uniform x).
Proof.
  intros Px Nx. pose proof wf16 as W. destruct (split_sign f16 W x Px) as (Ha & Ea & Ra & _ & Ua & C).
  rewrite half_magic. set (a := Z.lxor x (Z.land x (2 ^ (width f16 - 1)))) in *.
  assert (Pa : pattern f16 a) by (unfold pattern; rewrite (pow_w f16 W); lia).
  assert (Na : not_a_number f16 a) by (unfold not_a_number in *; rewrite Ea, Ra; exact Nx).
  destruct (flt_nan f16 W a bits_1024 Pa Na) as (_ & _ & -> & _). apply (magic_nan f16 W bits_1024 x Px Nx).
Qed.
