(** Functions on the fields of the representation. *)
From Coq Require Import ZArith Lia Bool SpecFloat.
From Verif Require Import Bits FpProofs FloatModel FloatSpec FloatProofs FloatProofs2 FloatProofs3 FloatProofs4.
Local Open Scope Z_scope.

Section M.
Variable F : fmt.
Hypothesis W : wf F.
Notation P := (prec F).
Notation E := (emx F).
Notation U := (unit1 F).
Notation w1 := (width F - 1).

Lemma land_emask x : 0 <= x -> Z.land x (emask F) = exponent F x * 2 ^ mw F.
Proof.
  intros Hx. destruct W as (M0 & E0 & _). unfold emask, exponent.
  replace (2 ^ ew F - 1) with (Z.ones (ew F)) by (rewrite Z.ones_equiv; lia).
  rewrite <- Z.land_ones, <- Z.shiftr_div_pow2, <- !Z.shiftl_mul_pow2 by lia.
  apply Z.bits_inj'. intros i Hi. rewrite Z.land_spec, !Z.shiftl_spec, Z.land_spec by lia. destruct (Z.ltb_spec i (mw F)).
  - rewrite !(Z.testbit_neg_r _ (i - mw F)) by lia. rewrite !andb_false_r. reflexivity.
  - rewrite Z.shiftr_spec by lia. replace (i - mw F + mw F) with i by lia. reflexivity.
Qed.

Lemma emask_range : 0 <= emask F < 2 ^ width F.
Proof. pose proof (pow_w F W). pose proof (pow_w1 F W). pose proof (pow_ew F W). pose proof (pow_mw F W). unfold emask. nia. Qed.

Lemma land_rest x : pattern F x -> Z.land x (2 ^ width F - 1 - emask F) = x - exponent F x * 2 ^ mw F /\
  forall c, 0 <= c < 2 ^ ew F -> Z.land (Z.land x (2 ^ width F - 1 - emask F)) (c * 2 ^ mw F) = 0.
Proof.
  intros Px. assert (W0 : 0 <= width F) by (destruct W as (? & ? & ?); unfold width; lia). pose proof emask_range as ER.
  assert (Q : Z.land x (2 ^ width F - 1 - emask F) = Z.ldiff x (emask F)).
  { replace (2 ^ width F - 1) with (Z.ones (width F)) by (rewrite Z.ones_equiv; lia).
    rewrite Z.sub_nocarry_ldiff.
    - apply Z.bits_inj'. intros i Hi. rewrite Z.land_spec, !Z.ldiff_spec. rewrite andb_assoc, <- Z.land_spec, Z.land_ones, Z.mod_small by auto. reflexivity.
    - apply Z.ldiff_ones_r_low; [lia|]. destruct (Z.eq_dec (emask F) 0) as [->|NE]; [cbn; unfold width in *; destruct W as (? & ? & ?); lia|].
      apply Z.log2_lt_pow2; lia. }
  split.
  - rewrite Q, <- land_emask by apply Px. pose proof (Z.lor_ldiff_and x (emask F)) as L.
    rewrite <- Z.lxor_lor, <- Z.add_nocarry_lxor in L; [lia| |];
    apply Z.bits_inj'; intros i Hi; rewrite Z.land_spec, Z.ldiff_spec, Z.land_spec, Z.bits_0; destruct (Z.testbit x i), (Z.testbit (emask F) i); reflexivity.
  - intros c Hc. rewrite Q. destruct W as (M0 & E0 & _). apply Z.bits_inj'. intros i Hi. rewrite Z.land_spec, Z.ldiff_spec, Z.bits_0.
    assert (T : Z.testbit (c * 2 ^ mw F) i = true -> Z.testbit (emask F) i = true).
    { unfold emask. replace (2 ^ ew F - 1) with (Z.ones (ew F)) by (rewrite Z.ones_equiv; lia). rewrite <- !Z.shiftl_mul_pow2, !Z.shiftl_spec by lia.
      destruct (Z.ltb_spec i (mw F)); [rewrite Z.testbit_neg_r by lia; discriminate|]. rewrite Z.ones_spec_iff by lia. intros T.
      destruct (Z.ltb_spec (i - mw F) (ew F)); [lia|]. exfalso. rewrite Z.bits_above_log2 in T; [discriminate|lia|].
      destruct (Z.eq_dec c 0) as [->|]; [cbn; lia|]. apply Z.lt_le_trans with (ew F); [|lia]. apply Z.log2_lt_pow2; lia. }
    destruct (Z.testbit (c * 2 ^ mw F) i); [rewrite T by reflexivity; destruct (Z.testbit x i); reflexivity|apply andb_false_r].
Qed.

(** The exponent replaced by c. *)
Lemma set_exponent x c : pattern F x -> 0 <= c < 2 ^ ew F ->
  let y := Z.lor (Z.land x (2 ^ width F - 1 - emask F)) (c * 2 ^ mw F) in
  pattern F y /\ exponent F y = c /\ fraction F y = fraction F x /\ (2 ^ w1 <=? y) = (2 ^ w1 <=? x).
Proof.
  intros Px Hc y. destruct (land_rest x Px) as [Q D]. specialize (D c Hc).
  assert (EY : y = sign_of F (2 ^ w1 <=? x) + c * 2 ^ mw F + fraction F x).
  { unfold y. rewrite <- Z.lxor_lor, <- Z.add_nocarry_lxor by exact D. rewrite Q. pose proof (fields F W x Px) as FX.
    replace (sign_of F (2 ^ w1 <=? x)) with (if 2 ^ w1 <=? x then 2 ^ w1 else 0) by (unfold sign_of; rewrite (w1_eq F); reflexivity). lia. }
  rewrite EY. apply (of_fields F W); [exact Hc|apply fraction_range; exact W].
Qed.

Lemma scale_value x y n : exponent F y = exponent F x + n -> 0 < exponent F x -> 0 < exponent F y -> fraction F y = fraction F x ->
  (2 ^ w1 <=? y) = (2 ^ w1 <=? x) -> scaled n (units F y) (units F x).
Proof.
  intros EY X0 Y0 FY SY. unfold scaled, units. rewrite SY.
  assert (M : magnitude F y * 2 ^ Z.max 0 (- n) = magnitude F x * 2 ^ Z.max 0 n).
  { unfold magnitude. rewrite FY. replace (exponent F y =? 0) with false by (symmetry; apply Z.eqb_neq; lia).
    replace (exponent F x =? 0) with false by (symmetry; apply Z.eqb_neq; lia). rewrite <- !Z.mul_assoc, <- !Z.pow_add_r by lia. f_equal. f_equal. lia. }
  destruct (2 ^ w1 <=? x); lia.
Qed.

Lemma ldexp_fields fast x n : pattern F x -> 0 <= exponent F x + n < 2 ^ ew F -> (fast = true \/ units F x <> 0 \/ ~ finite F x) ->
  let y := ldexp F fast x n in
  pattern F y /\ exponent F y = exponent F x + n /\ fraction F y = fraction F x /\ (2 ^ w1 <=? y) = (2 ^ w1 <=? x).
Proof.
  intros Px HE HZ. unfold ldexp. rewrite (Z.land_comm (emask F)), land_emask by apply Px.
  rewrite <- Z.mul_add_distr_r, (Z.add_comm n). pose proof (pow_mw F W) as PM. pose proof (pow_ew F W). pose proof (exponent_range F W x).
  rewrite Z.mod_small by (rewrite (pow_w F W), (pow_w1 F W); nia).
  pose proof (set_exponent x (exponent F x + n) Px HE) as SE. destruct fast; [exact SE|].
  replace (feq F x 0) with false; [exact SE|]. destruct HZ as [HZ|[HZ|HZ]]; [discriminate| |].
  - assert (Fx : finite F x \/ ~ finite F x) by (unfold finite; lia). destruct Fx as [Fx|NF].
    + destruct (zero_val F W) as (P0 & F0 & U0). rewrite (feq_val F W x 0 Px Fx P0 F0), U0. symmetry. apply Z.eqb_neq. exact HZ.
    + assert (C : infinite F x \/ not_a_number F x) by (unfold finite, infinite, not_a_number in *; lia).
      unfold feq, SFeqb. destruct C as [C|C]; [rewrite (decode_inf F W x Px C)|rewrite (decode_nan F W x Px C)]; [|reflexivity].
      replace (decode F 0) with (S754_zero false); [destruct (2 ^ w1 <=? x); reflexivity|].
      unfold decode. rewrite Z.testbit_0_l, Z.div_0_l, Z.mod_0_l by lia. cbn [Z.eqb]. rewrite Z.mod_0_l by lia. reflexivity.
  - assert (C : infinite F x \/ not_a_number F x) by (unfold finite, infinite, not_a_number in *; lia).
      unfold feq, SFeqb. destruct C as [C|C]; [rewrite (decode_inf F W x Px C)|rewrite (decode_nan F W x Px C)]; [|reflexivity].
      replace (decode F 0) with (S754_zero false); [destruct (2 ^ w1 <=? x); reflexivity|].
      unfold decode. rewrite Z.testbit_0_l, Z.div_0_l, Z.mod_0_l by lia. cbn [Z.eqb]. rewrite Z.mod_0_l by lia. reflexivity.
Qed.

Lemma units_zero x : pattern F x -> (units F x = 0 <-> exponent F x = 0 /\ fraction F x = 0).
Proof.
  intros Px. pose proof (fraction_range F W x). pose proof (exponent_range F W x). pose proof (pow_mw F W).
  assert (M : magnitude F x = 0 <-> exponent F x = 0 /\ fraction F x = 0).
  { unfold magnitude. destruct (Z.eqb_spec (exponent F x) 0) as [->|NE]; [tauto|]. pose proof (pow2_pos (exponent F x - 1) ltac:(lia)). split; [nia|tauto]. }
  unfold units. destruct (2 ^ w1 <=? x); lia.
Qed.

Lemma ldexp_ok fast x n : pattern F x -> normal F x -> 0 < exponent F x + n < 2 ^ ew F - 1 ->
  let y := ldexp F fast x n in pattern F y /\ normal F y /\ scaled n (units F y) (units F x).
Proof.
  intros Px Nx Hn y. unfold normal in Nx. destruct (ldexp_fields fast x n Px ltac:(lia)) as (Py & Ey & Ry & Sy).
  { right. left. rewrite units_zero by exact Px. lia. }
  fold y in Py, Ey, Ry, Sy. split; [exact Py|]. unfold normal. rewrite Ey. split; [lia|]. apply scale_value; auto; lia.
Qed.
Lemma ldexp_zero x n : pattern F x -> units F x = 0 -> ldexp F false x n = x.
Proof.
  intros Px Z0. unfold ldexp. destruct (zero_val F W) as (P0 & F0 & U0). assert (Fx : finite F x).
  { apply units_zero in Z0; [|exact Px]. unfold finite. pose proof (pow_ew F W). lia. }
  rewrite (feq_val F W x 0 Px Fx P0 F0), U0, Z0. reflexivity.
Qed.

Lemma frexp_ok x : pattern F x -> normal F x -> let '(r, p) := frexp F x in
  pattern F r /\ finite F r /\ scaled p (units F x) (units F r) /\ U <= 2 * Z.abs (units F r) < 2 * U.
Proof.
  intros Px Nx. unfold frexp. pose proof (W1 F W) as H1. pose proof (W2 F W) as H2. pose proof (ew2 F W) as E2. pose proof (pow_mw F W) as PM.
  rewrite (Z.land_comm (emask F)), land_emask by apply Px. rewrite Z.div_mul by lia.
  destruct (set_exponent x (E - 2) Px ltac:(lia)) as (Py & Ey & Ry & Sy). set (y := Z.lor _ _) in *. unfold normal in Nx.
  split; [exact Py|]. split; [unfold finite; lia|]. split; [apply scale_value; auto; try lia|].
  pose proof (fraction_range F W x). assert (AU : Z.abs (units F y) = magnitude F y).
  { pose proof (magnitude_nonneg F W y). unfold units. destruct (2 ^ w1 <=? y); lia. }
  rewrite AU. unfold magnitude. rewrite Ey, Ry. replace (E - 2 =? 0) with false by (symmetry; apply Z.eqb_neq; lia).
  assert (EU : U = 2 * (2 ^ mw F * 2 ^ (E - 2 - 1))).
  { rewrite <- Z.pow_add_r, <- Z.pow_succ_r by (destruct W as (? & ? & ?); lia). unfold unit1. f_equal. unfold emx. lia. }
  pose proof (pow2_pos (E - 2 - 1) ltac:(lia)). nia.
Qed.

Lemma fabs_ok x : pattern F x -> let y := fabs F x in
  pattern F y /\ ~ negative F y /\ exponent F y = exponent F x /\ fraction F y = fraction F x /\ units F y = Z.abs (units F x).
Proof.
  intros Px. unfold fabs. pose proof (w1_nonneg F W) as W0. pose proof (pow2_pos w1 W0) as PW. pose proof (pow_w F W) as PP.
  replace (2 ^ w1 - 1) with (Z.ones w1) by (rewrite Z.ones_equiv; lia). rewrite Z.land_ones by exact W0.
  destruct (split_sign F W x Px) as (Ha & Ea & Ra & _ & Ua & C). set (a := Z.lxor x _) in *.
  assert (Q : x mod 2 ^ w1 = a).
  { destruct C as [(_ & X & _)|(_ & X & _)]; [rewrite <- X in Ha; rewrite <- X; apply Z.mod_small; exact Ha|].
    symmetry. apply Z.mod_unique_pos with 1; lia. }
  rewrite Q. unfold pattern, negative. repeat split; auto; lia.
Qed.
Lemma signbits_ok x : pattern F x -> signbits F x = if 2 ^ w1 <=? x then 2 ^ w1 else 0.
Proof. intros Px. unfold signbits. apply land_top; [apply w1_nonneg; exact W|]. unfold pattern in Px. replace (w1 + 1) with (width F) by lia. exact Px. Qed.

Lemma trichotomy x : finite F x \/ infinite F x \/ not_a_number F x.
Proof. pose proof (exponent_range F W x). unfold finite, infinite, not_a_number. lia. Qed.

Lemma isnan_ok x : pattern F x -> (isnan F x = true <-> not_a_number F x).
Proof.
  intros Px. unfold isnan. destruct (trichotomy x) as [C|[C|C]].
  - rewrite (feq_val F W x x Px C Px C), Z.eqb_refl. unfold finite, not_a_number in *. cbn. split; [discriminate|lia].
  - unfold feq, SFeqb. rewrite (decode_inf F W x Px C). unfold infinite, not_a_number in *. destruct (2 ^ w1 <=? x); cbn; (split; [discriminate|lia]).
  - unfold feq, SFeqb. rewrite (decode_nan F W x Px C). cbn. tauto.
Qed.
Lemma isinf_ok x : pattern F x -> (isinf F x = true <-> infinite F x).
Proof.
  intros Px. unfold isinf. destruct (fabs_ok x Px) as (Py & Ny & Ey & Ry & _). set (y := fabs F x) in *. rewrite Z.eqb_eq.
  pose proof (fields F W y Py) as FY. replace (2 ^ w1 <=? y) with false in FY by (symmetry; apply Z.leb_gt; unfold negative in Ny; lia).
  pose proof (fraction_range F W y). pose proof (exponent_range F W y). pose proof (pow_mw F W). unfold infinite, emask. rewrite <- Ey, <- Ry. split.
  { intros Q. rewrite Q in FY at 1. assert (X : exponent F y = 2 ^ ew F - 1).
    { destruct (Z.eq_dec (exponent F y) (2 ^ ew F - 1)) as [X|X]; [exact X|]. exfalso.
      assert (exponent F y * 2 ^ mw F <= (2 ^ ew F - 2) * 2 ^ mw F) by (apply Z.mul_le_mono_nonneg_r; lia). lia. }
    split; [exact X|]. rewrite X in FY. lia. }
  intros [A B]. rewrite FY, A, B. lia.
Qed.
Lemma isfinite_ok x : pattern F x -> (isfinite F x = true <-> finite F x).
Proof.
  intros Px. unfold isfinite. rewrite land_emask by apply Px. pose proof (exponent_range F W x). pose proof (pow_mw F W).
  rewrite negb_true_iff, Z.eqb_neq. unfold finite, emask. nia.
Qed.
End M.

Lemma iabs_ok w a : 0 < w -> - 2 ^ (w - 1) < a < 2 ^ (w - 1) -> iabs w a = Z.abs a.
Proof.
  intros Hw Ha. unfold iabs. assert (E : 2 ^ w = 2 * 2 ^ (w - 1)) by (rewrite <- Z.pow_succ_r by lia; f_equal; lia).
  destruct (Z.ltb_spec 0 a); [lia|]. rewrite Z.mod_small; lia.
Qed.
Lemma iabs_min w : 0 < w -> iabs w (- 2 ^ (w - 1)) = - 2 ^ (w - 1).
Proof.
  intros Hw. unfold iabs. assert (E : 2 ^ w = 2 * 2 ^ (w - 1)) by (rewrite <- Z.pow_succ_r by lia; f_equal; lia).
  pose proof (pow2_pos (w - 1) ltac:(lia)). destruct (Z.ltb_spec 0 (- 2 ^ (w - 1))); [lia|].
  replace (- - 2 ^ (w - 1) + 2 ^ (w - 1)) with (2 ^ w) by lia. rewrite Z.mod_same; lia.
Qed.
