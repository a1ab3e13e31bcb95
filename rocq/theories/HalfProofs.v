(** Half/float conversions: bit-level lemmas and the conversion theorems. *)
From Coq Require Import ZArith List Bool Lia SpecFloat.
From Verif Require Import Bits FpModel FpProofs HalfModel HalfSpec.
Import ListNotations.
Local Open Scope Z_scope.

(** ** Bits *)

Lemma land_pow2 a k : 0 <= k -> Z.land a (2 ^ k) = if Z.testbit a k then 2 ^ k else 0.
Proof.
  intros Hk. apply Z.bits_inj'. intros i Hi. rewrite Z.land_spec, Z.pow2_bits_eqb by lia.
  destruct (Z.eqb_spec k i) as [->|N].
  - rewrite andb_true_r. destruct (Z.testbit a i) eqn:E; [rewrite Z.pow2_bits_true by lia|rewrite Z.bits_0]; reflexivity.
  - rewrite andb_false_r. destruct (Z.testbit a k); [rewrite Z.pow2_bits_false by lia|rewrite Z.bits_0]; reflexivity.
Qed.

Lemma testbit_top k f : 0 <= k -> 0 <= f < 2 ^ (k + 1) -> Z.testbit f k = (2 ^ k <=? f).
Proof.
  intros Hk H. replace k with (k + 1 - 1) at 1 by lia. rewrite msb_spec by (unfold in_u; lia). f_equal. f_equal. lia.
Qed.

Lemma lxor_sign f : is32 f -> Z.lxor f (Z.land f (2 ^ 31)) = f mod 2 ^ 31.
Proof.
  intros H. apply Z.bits_inj'. intros i Hi. rewrite Z.lxor_spec, Z.land_spec, Z.pow2_bits_eqb by lia.
  destruct (Z.lt_ge_cases i 31).
  - rewrite Z.mod_pow2_bits_low by lia. destruct (Z.eqb_spec 31 i); [lia|]. rewrite andb_false_r. apply xorb_false_r.
  - rewrite Z.mod_pow2_bits_high by lia. destruct (Z.eqb_spec 31 i) as [<-|].
    + rewrite andb_true_r. apply xorb_nilpotent.
    + rewrite andb_false_r, xorb_false_r. apply (in_u_high 32); [exact H|lia].
Qed.

Lemma land_round_mask x : 0 <= x < 2 ^ 32 -> Z.land x round_mask = x - x mod 2 ^ 12.
Proof.
  intros H. change round_mask with (Z.shiftl (Z.ones 20) 12).
  assert (E : x - x mod 2 ^ 12 = Z.shiftl (Z.shiftr x 12) 12).
  { rewrite Z.shiftl_mul_pow2, Z.shiftr_div_pow2 by lia. pose proof (Z.div_mod x (2 ^ 12)). lia. }
  rewrite E. apply Z.bits_inj'. intros i Hi. rewrite Z.land_spec.
  destruct (Z.lt_ge_cases i 12).
  - rewrite !Z.shiftl_spec_low by lia. apply andb_false_r.
  - rewrite !Z.shiftl_spec, Z.shiftr_spec by lia. replace (i - 12 + 12) with i by lia.
    destruct (Z.lt_ge_cases i 32).
    + rewrite Z.ones_spec_low by lia. apply andb_true_r.
    + rewrite (in_u_high 32 x) by (try exact H; lia). reflexivity.
Qed.

Lemma land_ones_low x k : 0 <= k -> Z.land x (2 ^ k - 1) = x mod 2 ^ k.
Proof. intros. rewrite <- Z.land_ones by lia. rewrite Z.ones_equiv. reflexivity. Qed.

Lemma lor_add a b k : 0 <= k -> 0 <= a < 2 ^ k -> b mod 2 ^ k = 0 -> Z.lor a b = a + b.
Proof.
  intros Hk Ha Hb.
  assert (E : Z.land a b = 0).
  { apply Z.bits_inj'. intros i Hi. rewrite Z.land_spec, Z.bits_0.
    destruct (Z.lt_ge_cases i k).
    - rewrite <- (Z.mod_pow2_bits_low b k i) by lia. rewrite Hb, Z.bits_0. apply andb_false_r.
    - rewrite (in_u_high k a) by (try exact Ha; lia). reflexivity. }
  rewrite Z.add_nocarry_lxor, Z.lxor_lor by exact E. reflexivity.
Qed.

(** ** Decoding and encoding of non-negative patterns *)

Lemma decode_sub m : 0 < m < 2 ^ 23 -> f32_of_bits m = S754_finite false (Z.to_pos m) (-149).
Proof.
  intros H. unfold f32_of_bits. rewrite (in_u_high 31 m) by (unfold in_u; lia).
  replace (m / 2 ^ 23) with 0 by (symmetry; apply Z.div_small; lia). cbn [Z.modulo Z.eqb].
  change (0 mod 2 ^ 8 =? 0) with true. cbv iota.
  rewrite Z.mod_small by lia. destruct m; try lia. reflexivity.
Qed.

Lemma decode_norm e m : 1 <= e <= 254 -> 0 <= m < 2 ^ 23 ->
  f32_of_bits (e * 2 ^ 23 + m) = S754_finite false (Z.to_pos (m + 2 ^ 23)) (e - 150).
Proof.
  intros He Hm. unfold f32_of_bits. rewrite (in_u_high 31) by (unfold in_u; lia).
  assert (E1 : (e * 2 ^ 23 + m) / 2 ^ 23 = e) by lia. assert (E2 : (e * 2 ^ 23 + m) mod 2 ^ 23 = m) by lia.
  rewrite E1, E2. rewrite Z.mod_small by lia.
  destruct (Z.eqb_spec e 0); [lia|]. destruct (Z.eqb_spec e 255); [lia|].
  destruct (m + 2 ^ 23) eqn:Q; try lia. reflexivity.
Qed.

Lemma encode_sub s m e : 0 < m < 2 ^ 23 -> bits_of_f32 (S754_finite s (Z.to_pos m) e) = signbit32 s + m.
Proof.
  intros H. unfold bits_of_f32. rewrite Z2Pos.id by lia. destruct (Z.ltb_spec m (2 ^ 23)); lia.
Qed.

Lemma encode_norm s m e : 2 ^ 23 <= m -> bits_of_f32 (S754_finite s (Z.to_pos m) e) = signbit32 s + (e + 150) * 2 ^ 23 + (m - 2 ^ 23).
Proof.
  intros H. unfold bits_of_f32. rewrite Z2Pos.id by lia. destruct (Z.ltb_spec m (2 ^ 23)); lia.
Qed.

(** Canonical (mantissa, exponent) pairs of single precision *)
Lemma fexp32_norm m e : 2 ^ 23 <= m < 2 ^ 24 -> -149 <= e -> fexp 24 128 (Zdigits2 m + e) = e.
Proof.
  intros H He. rewrite Zdigits2_log2 by lia.
  assert (L : Z.log2 m = 23) by (apply Z.log2_unique; lia). rewrite L. unfold fexp, emin. lia.
Qed.

Lemma fexp32_sub m : 0 < m < 2 ^ 23 -> fexp 24 128 (Zdigits2 m + -149) = -149.
Proof.
  intros H. rewrite Zdigits2_log2 by lia.
  assert (Z.log2 m < 23) by (apply Z.log2_lt_pow2; lia). unfold fexp, emin. lia.
Qed.

(** ** The scaling by 2^-112 in float_to_half *)

Lemma decode_magic : f32_of_bits (15 * 2 ^ 23) = S754_finite false (Z.to_pos (2 ^ 23)) (-135).
Proof. reflexivity. Qed.

Lemma mul_magic_normal e m : 113 <= e <= 254 -> 0 <= m < 2 ^ 23 ->
  fmul32 (e * 2 ^ 23 + m) (15 * 2 ^ 23) = (e - 112) * 2 ^ 23 + m.
Proof.
  intros He Hm. unfold fmul32. rewrite decode_norm, decode_magic by lia. cbn [SFmul xorb].
  rewrite (round_aux_exact 24 128 _ _ _ (m + 2 ^ 23) (e - 262)).
  - rewrite encode_norm by lia. cbn [signbit32]. lia.
  - lia.
  - apply fexp32_norm; lia.
  - lia.
  - lia.
  - rewrite Pos2Z.inj_mul, !Z2Pos.id by lia. f_equal. f_equal. lia.
Qed.

Lemma mul_magic_denormal e m : 101 <= e <= 112 -> 0 <= m < 2 ^ 23 -> m mod 2 ^ 12 = 0 ->
  fmul32 (e * 2 ^ 23 + m) (15 * 2 ^ 23) = (m + 2 ^ 23) / 2 ^ (113 - e) /\
  (m + 2 ^ 23) mod 2 ^ (113 - e) = 0.
Proof.
  intros He Hm Hd. set (k := 113 - e). assert (Hk : 1 <= k <= 12) by lia.
  assert (P : 2 ^ 12 = 2 ^ (12 - k) * 2 ^ k) by (rewrite <- Z.pow_add_r by lia; f_equal; lia).
  pose proof (pow2_pos k) as Pk. pose proof (pow2_pos (12 - k)) as Pk'.
  assert (D : m + 2 ^ 23 = ((m / 2 ^ 12 + 2 ^ 11) * 2 ^ (12 - k)) * 2 ^ k).
  { rewrite <- Z.mul_assoc, <- P. pose proof (Z.div_mod m (2 ^ 12)). lia. }
  assert (Q : (m + 2 ^ 23) / 2 ^ k = (m / 2 ^ 12 + 2 ^ 11) * 2 ^ (12 - k)) by (rewrite D; apply Z.div_mul; lia).
  split; [|rewrite D; apply Z.mod_mul; lia].
  set (m' := (m / 2 ^ 12 + 2 ^ 11) * 2 ^ (12 - k)) in *. rewrite Q.
  assert (0 < m'). { assert (0 <= m / 2 ^ 12) by (apply Z.div_pos; lia). unfold m'. nia. }
  assert (m' < 2 ^ 23). { assert (2 * m' <= m' * 2 ^ k); [|lia]. assert (2 ^ 1 <= 2 ^ k) by (apply Z.pow_le_mono_r; lia). nia. }
  unfold fmul32. rewrite decode_norm, decode_magic by lia. cbn [SFmul xorb].
  rewrite (round_aux_exact 24 128 _ _ _ m' (-149)).
  - rewrite encode_sub by lia. cbn [signbit32]. lia.
  - lia.
  - apply fexp32_sub; lia.
  - lia.
  - lia.
  - rewrite Pos2Z.inj_mul, !Z2Pos.id by lia. rewrite D.
    replace (-149 - (e - 150 + -135)) with (k + 23) by lia. rewrite Z.pow_add_r by lia. ring.
Qed.

Lemma encode_tiny x k : 0 <= k < 23 -> (x = S754_zero false \/ exists p, x = S754_finite false p (-149) /\ Zpos p <= 2 ^ k) ->
  0 <= bits_of_f32 x <= 2 ^ k.
Proof.
  intros Hk [->|(p & -> & L)].
  - cbn. pose proof (pow2_pos k). lia.
  - assert (2 ^ k < 2 ^ 23) by (apply Z.pow_lt_mono_r; lia).
    unfold bits_of_f32. destruct (Z.ltb_spec (Zpos p) (2 ^ 23)); cbn [signbit32]; lia.
Qed.

Lemma mul_magic_tiny x : 0 <= x < 101 * 2 ^ 23 -> 0 <= fmul32 x (15 * 2 ^ 23) <= 2 ^ 11.
Proof.
  intros H. destruct (Z.lt_ge_cases x (2 ^ 23)) as [L|L].
  - destruct (Z.eq_dec x 0) as [->|N]; [vm_compute; split; discriminate|].
    unfold fmul32. rewrite decode_sub, decode_magic by lia. cbn [SFmul xorb]. apply encode_tiny; [lia|].
    rewrite Pos2Z.inj_mul, !Z2Pos.id by lia.
    change (-149) with (emin 24 128) at 2. apply round_aux_tiny; try (unfold emin; lia).
    rewrite Zdigits2_mul by lia. rewrite Zdigits2_log2 by lia.
    assert (Z.log2 x < 23) by (apply Z.log2_lt_pow2; lia). unfold fexp, emin. lia.
  - set (e := x / 2 ^ 23). set (m := x mod 2 ^ 23).
    assert (Ex : x = e * 2 ^ 23 + m) by (unfold e, m; pose proof (Z.div_mod x (2 ^ 23)); lia).
    assert (1 <= e <= 100) by (unfold e; lia). assert (0 <= m < 2 ^ 23) by (unfold m; lia).
    rewrite Ex. unfold fmul32. rewrite decode_norm, decode_magic by lia. cbn [SFmul xorb]. apply encode_tiny; [lia|].
    rewrite Pos2Z.inj_mul, !Z2Pos.id by lia.
    change (-149) with (emin 24 128). apply round_aux_tiny; try (unfold emin; lia).
    + rewrite Zdigits2_mul by lia. rewrite Zdigits2_log2 by lia.
      assert (Z.log2 (m + 2 ^ 23) = 23) by (apply Z.log2_unique; lia). unfold fexp, emin. lia.
    + assert (2 ^ 47 <= 2 ^ (11 + (emin 24 128 - (e - 150 + -135)))) by (apply Z.pow_le_mono_r; unfold emin; lia). lia.
Qed.

(** The magnitude of the half that float_to_half computes from the magnitude [x] of a finite single *)
Definition half_of_mag (x : Z) : Z :=
  Z.min 31744 ((fmul32 (x - x mod 2 ^ 12) (15 * 2 ^ 23) + 4096) / 2 ^ 13).

(** ** The value function on patterns extended by 13 bits *)

Definition V (y : Z) : Z := if y / 2 ^ 23 =? 0 then y mod 2 ^ 23 else (y mod 2 ^ 23 + 2 ^ 23) * 2 ^ (y / 2 ^ 23 - 1).

(* V is linear on every cell [8192 h, 8192 h + 8192] *)
Lemma V_cell h : 0 <= h -> exists s, 0 < s /\ forall d, 0 <= d <= 2 ^ 13 -> V (h * 2 ^ 13 + d) = V (h * 2 ^ 13) + d * s.
Proof.
  intros Hh. set (e := h / 2 ^ 10). set (m := h mod 2 ^ 10).
  assert (Eh : h = e * 2 ^ 10 + m) by (unfold e, m; pose proof (Z.div_mod h (2 ^ 10)); lia).
  assert (Hm : 0 <= m < 2 ^ 10) by (unfold m; lia). assert (He : 0 <= e) by (unfold e; lia).
  assert (In : forall d, 0 <= d < 2 ^ 13 -> V (h * 2 ^ 13 + d) = if e =? 0 then m * 2 ^ 13 + d else (m * 2 ^ 13 + d + 2 ^ 23) * 2 ^ (e - 1)).
  { intros d Hd. unfold V.
    assert (E1 : (h * 2 ^ 13 + d) / 2 ^ 23 = e) by lia.
    assert (E2 : (h * 2 ^ 13 + d) mod 2 ^ 23 = m * 2 ^ 13 + d) by lia.
    rewrite E1, E2. reflexivity. }
  assert (Top : V (h * 2 ^ 13 + 2 ^ 13) = if e =? 0 then m * 2 ^ 13 + 2 ^ 13 else (m * 2 ^ 13 + 2 ^ 13 + 2 ^ 23) * 2 ^ (e - 1)).
  { unfold V. destruct (Z.eq_dec m (2 ^ 10 - 1)) as [Em|Em].
    - assert (E1 : (h * 2 ^ 13 + 2 ^ 13) / 2 ^ 23 = e + 1) by lia.
      assert (E2 : (h * 2 ^ 13 + 2 ^ 13) mod 2 ^ 23 = 0) by lia. rewrite E1, E2.
      destruct (Z.eqb_spec (e + 1) 0); [lia|]. replace (e + 1 - 1) with e by lia.
      destruct (Z.eqb_spec e 0) as [->|]; [lia|].
      replace (2 ^ e) with (2 * 2 ^ (e - 1)) by (rewrite <- Z.pow_succ_r by lia; f_equal; lia). lia.
    - assert (E1 : (h * 2 ^ 13 + 2 ^ 13) / 2 ^ 23 = e) by lia.
      assert (E2 : (h * 2 ^ 13 + 2 ^ 13) mod 2 ^ 23 = m * 2 ^ 13 + 2 ^ 13) by lia. rewrite E1, E2. reflexivity. }
  exists (if e =? 0 then 1 else 2 ^ (e - 1)). split.
  - destruct (Z.eqb_spec e 0); [lia|apply pow2_pos; lia].
  - intros d Hd. rewrite <- (Z.add_0_r (h * 2 ^ 13)) at 2. rewrite (In 0) by lia.
    destruct (Z.eq_dec d (2 ^ 13)) as [->|N]; [rewrite Top|rewrite In by lia]; destruct (e =? 0); ring.
Qed.

Lemma V_step h : 0 <= h -> V (h * 2 ^ 13) < V ((h + 1) * 2 ^ 13).
Proof.
  intros H. destruct (V_cell h H) as (s & Ps & L).
  replace ((h + 1) * 2 ^ 13) with (h * 2 ^ 13 + 2 ^ 13) by ring. rewrite L by lia. lia.
Qed.

Lemma V_mono h h' : 0 <= h <= h' -> V (h * 2 ^ 13) <= V (h' * 2 ^ 13).
Proof.
  intros [H0 H].
  assert (G : forall n, V (h * 2 ^ 13) <= V ((h + Z.of_nat n) * 2 ^ 13)).
  { induction n as [|n IH].
    - rewrite Z.add_0_r. lia.
    - rewrite Nat2Z.inj_succ. pose proof (V_step (h + Z.of_nat n) ltac:(lia)).
      replace (h + Z.succ (Z.of_nat n)) with (h + Z.of_nat n + 1) by lia. lia. }
  specialize (G (Z.to_nat (h' - h))). rewrite Z2Nat.id in G by lia.
  replace (h + (h' - h)) with h' in G by lia. exact G.
Qed.

Lemma V_mono_lt h h' : 0 <= h < h' -> V (h * 2 ^ 13) < V (h' * 2 ^ 13).
Proof.
  intros H. pose proof (V_step h ltac:(lia)). pose proof (V_mono (h + 1) h' ltac:(lia)). lia.
Qed.

Lemma V_mag16 h : 0 <= h < 31744 -> V (h * 2 ^ 13) = mag16 h * 2 ^ 13.
Proof.
  intros H. unfold V, mag16, exp16, man16.
  assert (E1 : h * 2 ^ 13 / 2 ^ 23 = h / 2 ^ 10) by lia. assert (E2 : (h * 2 ^ 13) mod 2 ^ 23 = (h mod 2 ^ 10) * 2 ^ 13) by lia.
  assert (E3 : (h / 2 ^ 10) mod 2 ^ 5 = h / 2 ^ 10) by lia.
  rewrite E1, E2, E3. destruct (h / 2 ^ 10 =? 0); ring.
Qed.

Lemma V_small y : 0 <= y < 2 ^ 24 -> V y = y.
Proof.
  intros H. unfold V. destruct (Z.eqb_spec (y / 2 ^ 23) 0); [lia|].
  assert (E : y / 2 ^ 23 = 1) by lia. rewrite E. cbn [Z.sub Z.pow]. lia.
Qed.
