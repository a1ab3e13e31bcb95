(** The bit-level functions of HalfModel.v in terms of fields and values. *)
From Coq Require Import ZArith List Bool Lia SpecFloat.
From Verif Require Import Bits FpModel FpProofs HalfModel HalfSpec HalfProofs HalfProofs2.
Import ListNotations.
Local Open Scope Z_scope.

(** ** Comparison of positive patterns *)

Lemma flt32_pos a b : 0 <= a < 255 * 2 ^ 23 -> 0 <= b < 255 * 2 ^ 23 -> flt32 a b = (a <? b).
Proof.
  assert (D : forall x, 0 <= x < 255 * 2 ^ 23 ->
    x = 0 /\ f32_of_bits x = S754_zero false \/
    exists p e, f32_of_bits x = S754_finite false p e /\ x = (e + 149) * 2 ^ 23 + Zpos p /\ -149 <= e /\ 0 < Zpos p < 2 ^ 24 /\ (e = -149 \/ 2 ^ 23 <= Zpos p)).
  { intros x H. destruct (Z.eq_dec x 0) as [->|N]; [now left|right].
    destruct (Z.lt_ge_cases x (2 ^ 23)) as [L|L].
    - exists (Z.to_pos x), (-149). rewrite decode_sub by lia. rewrite Z2Pos.id by lia. repeat split; lia.
    - set (e := x / 2 ^ 23). set (m := x mod 2 ^ 23).
      exists (Z.to_pos (m + 2 ^ 23)), (e - 150). replace x with (e * 2 ^ 23 + m) by (unfold e, m; lia).
      rewrite decode_norm by (unfold e, m; lia). rewrite Z2Pos.id by (unfold m; lia).
      repeat split; unfold e, m; lia. }
  intros Ha Hb. unfold flt32, SFltb.
  destruct (D a Ha) as [[Ea ->]|(pa & ea & -> & Xa & La & Ba & Ca)], (D b Hb) as [[Eb ->]|(pb & eb & -> & Xb & Lb & Bb & Cb)]; cbn [SFcompare].
  - symmetry. apply Z.ltb_ge. lia.
  - symmetry. apply Z.ltb_lt. lia.
  - symmetry. apply Z.ltb_ge. lia.
  - destruct (Z.compare_spec ea eb) as [E|E|E].
    + rewrite Pos2Z.inj_compare || idtac. destruct (Z.compare_spec (Zpos pa) (Zpos pb)) as [F|F|F].
      * unfold Z.compare in *. replace (Pos.compare_cont Eq pa pb) with Eq by (symmetry; apply Pos.compare_eq_iff; lia).
        symmetry. apply Z.ltb_ge. lia.
      * replace (Pos.compare_cont Eq pa pb) with Lt by (symmetry; apply Pos.compare_lt_iff; lia).
        symmetry. apply Z.ltb_lt. lia.
      * replace (Pos.compare_cont Eq pa pb) with Gt by (symmetry; apply Pos.compare_gt_iff; lia).
        symmetry. apply Z.ltb_ge. lia.
    + symmetry. apply Z.ltb_lt. lia.
    + symmetry. apply Z.ltb_ge. lia.
Qed.

Lemma isnan32_pos a : 0 <= a < 255 * 2 ^ 23 -> isnan32 a = false.
Proof.
  intros H. unfold isnan32. destruct (Z.lt_ge_cases a (2 ^ 23)) as [L|L].
  - destruct (Z.eq_dec a 0) as [->|N]; [reflexivity|]. rewrite decode_sub by lia. reflexivity.
  - replace a with (a / 2 ^ 23 * 2 ^ 23 + a mod 2 ^ 23) by lia. rewrite decode_norm by lia. reflexivity.
Qed.

(** ** float_to_half *)

Definition is_min (fmin : Z -> Z -> Z) : Prop :=
  forall a b, 0 <= a < 255 * 2 ^ 23 -> 0 <= b < 255 * 2 ^ 23 -> fmin a b = Z.min a b.

Lemma fminnum_is_min : is_min fminnum32.
Proof.
  intros a b Ha Hb. unfold fminnum32. rewrite !isnan32_pos, flt32_pos by lia.
  destruct (Z.ltb_spec b a); lia.
Qed.
Lemma fminps_is_min : is_min fminps32.
Proof. intros a b Ha Hb. unfold fminps32. rewrite flt32_pos by lia. destruct (Z.ltb_spec a b); lia. Qed.

Definition f2h (f : Z) : Z :=
  (if neg32 f then 2 ^ 15 else 0) +
  (let x := f mod 2 ^ 31 in
   if x <? 255 * 2 ^ 23 then Z.min 31744 (raw x) else if 255 * 2 ^ 23 <? x then 32256 else 31744).

Lemma fmul_range x : 0 <= x < 255 * 2 ^ 23 -> 0 <= fmul32 (x - x mod 2 ^ 12) (15 * 2 ^ 23) < 143 * 2 ^ 23.
Proof.
  intros H. destruct (Z.lt_ge_cases x (113 * 2 ^ 23)) as [L|L].
  - destruct (raw_small x ltac:(lia)). lia.
  - destruct (raw_normal x ltac:(lia)) as [-> _]. lia.
Qed.

Lemma sign_part f : is32 f -> sra (wraps 32 (Z.land f (2 ^ 31))) 16 = if neg32 f then - 2 ^ 15 else 0.
Proof.
  intros H. rewrite land_pow2 by lia. rewrite (testbit_top 31) by (cbn; unfold is32 in H; lia).
  unfold neg32. destruct (2 ^ 31 <=? f); reflexivity.
Qed.

Lemma or_sign q b : 0 <= q < 2 ^ 15 -> wrapu 16 (Z.lor q (if b : bool then - 2 ^ 15 else 0)) = (if b then 2 ^ 15 else 0) + q.
Proof.
  intros H. rewrite (lor_add q _ 15) by (try lia; now destruct b). unfold wrapu. destruct b.
  - change (2 ^ 16) with 65536. change (2 ^ 15) with 32768 in *. lia.
  - rewrite Z.mod_small; lia.
Qed.

Lemma f2h_uniform f : is32 f -> float_to_half_uniform f = f2h f.
Proof.
  intros H. unfold float_to_half_uniform. cbv zeta. rewrite lxor_sign by auto. rewrite sign_part by auto.
  set (x := f mod 2 ^ 31). assert (Hx : 0 <= x < 2 ^ 31) by (unfold x; lia).
  rewrite land_round_mask by lia. unfold f2h. cbv zeta. fold x.
  destruct (Z.ltb_spec x (255 * 2 ^ 23)) as [L|L].
  - pose proof (fmul_range x ltac:(lia)) as F. unfold raw.
    set (y := fmul32 (x - x mod 2 ^ 12) (15 * 2 ^ 23)) in *.
    assert (W : wraps 32 (y - round_mask) = y + 4096).
    { unfold round_mask. rewrite (wraps_congr 32 _ (y + 4096)) by (unfold wrapu; lia). apply wraps_id; [lia|]. unfold in_s. change (2 ^ (32 - 1)) with (2 ^ 31). lia. }
    rewrite W.
    replace (sra (if 31 * 2 ^ 23 <? y + 4096 then 31 * 2 ^ 23 else y + 4096) 13) with (Z.min 31744 ((y + 4096) / 2 ^ 13)).
    2:{ unfold sra. destruct (Z.ltb_spec (31 * 2 ^ 23) (y + 4096)); lia. }
    apply or_sign. lia.
  - destruct (Z.ltb_spec (255 * 2 ^ 23) x); apply or_sign; lia.
Qed.

Lemma f2h_varying fmin f : is_min fmin -> is32 f -> float_to_half_varying fmin f = f2h f.
Proof.
  intros M H. unfold float_to_half_varying. cbv zeta. rewrite lxor_sign by auto. rewrite sign_part by auto.
  set (x := f mod 2 ^ 31). assert (Hx : 0 <= x < 2 ^ 31) by (unfold x; lia).
  rewrite land_round_mask by lia. unfold f2h. cbv zeta. fold x.
  destruct (Z.ltb_spec x (255 * 2 ^ 23)) as [L|L].
  - pose proof (fmul_range x ltac:(lia)) as F. unfold raw.
    set (y := fmul32 (x - x mod 2 ^ 12) (15 * 2 ^ 23)) in *.
    rewrite M by lia.
    assert (W : wraps 32 (Z.min y (31 * 2 ^ 23 - 4096) - round_mask) = Z.min y (31 * 2 ^ 23 - 4096) + 4096).
    { unfold round_mask. rewrite (wraps_congr 32 _ (Z.min y (31 * 2 ^ 23 - 4096) + 4096)) by (unfold wrapu; lia). apply wraps_id; [lia|]. unfold in_s. change (2 ^ (32 - 1)) with (2 ^ 31). lia. }
    rewrite W.
    replace (sra (Z.min y (31 * 2 ^ 23 - 4096) + 4096) 13) with (Z.min 31744 ((y + 4096) / 2 ^ 13)).
    2:{ unfold sra. lia. }
    apply or_sign. lia.
  - destruct (Z.ltb_spec (255 * 2 ^ 23) x); apply or_sign; lia.
Qed.

(** ** The nearest half *)

Lemma exp32_mod f : is32 f -> exp32 f = (f mod 2 ^ 31) / 2 ^ 23 /\ exp32 (f mod 2 ^ 31) = exp32 f.
Proof. unfold is32, exp32. intros H. change (2 ^ 8) with 256. change (2 ^ 23) with 8388608. change (2 ^ 31) with 2147483648. change (2 ^ 32) with 4294967296 in H. lia. Qed.

Lemma man32_mod f : is32 f -> man32 f = (f mod 2 ^ 31) mod 2 ^ 23.
Proof. unfold is32, man32. intros H. change (2 ^ 23) with 8388608. change (2 ^ 31) with 2147483648. lia. Qed.

Lemma mag32_mod f : is32 f -> mag32 f = mag32 (f mod 2 ^ 31).
Proof.
  intros H. unfold mag32. destruct (exp32_mod f H) as [_ ->]. rewrite man32_mod by auto. reflexivity.
Qed.

Lemma finite32_mod f : is32 f -> (finite32 f <-> f mod 2 ^ 31 < 255 * 2 ^ 23).
Proof. intros H. unfold finite32. destruct (exp32_mod f H) as [-> _]. lia. Qed.

Lemma sgn16 (b : bool) q : 0 <= q < 2 ^ 15 ->
  let h := (if b then 2 ^ 15 else 0) + q in
  is16 h /\ neg16 h = b /\ exp16 h = q / 2 ^ 10 /\ man16 h = q mod 2 ^ 10 /\ mag16 h = mag16 q.
Proof.
  intros H. cbv zeta. unfold is16, neg16, exp16, man16.
  assert (E : exp16 ((if b then 2 ^ 15 else 0) + q) = exp16 q).
  { unfold exp16. destruct b; lia. }
  assert (M : man16 ((if b then 2 ^ 15 else 0) + q) = man16 q).
  { unfold man16. destruct b; lia. }
  split; [destruct b; lia|]. split; [destruct b; destruct (Z.leb_spec (2 ^ 15) q); try lia; apply Z.leb_le; lia|].
  split; [destruct b; lia|]. split; [destruct b; lia|].
  unfold mag16. rewrite E, M. reflexivity.
Qed.

Lemma split16 h : is16 h -> exists b q, 0 <= q < 2 ^ 15 /\ h = (if b : bool then 2 ^ 15 else 0) + q.
Proof.
  intros H. unfold is16 in H. exists (2 ^ 15 <=? h), (h mod 2 ^ 15). split; [lia|]. destruct (Z.leb_spec (2 ^ 15) h); lia.
Qed.

Lemma mag16_mono h h' : 0 <= h -> h <= h' -> h' < 31744 -> mag16 h <= mag16 h'.
Proof.
  intros A B C. pose proof (G_mono h h' ltac:(lia)) as M. rewrite !G_mag16 in M by lia. nia.
Qed.

Lemma mag16_nonneg h : 0 <= mag16 h.
Proof.
  unfold mag16, exp16, man16. destruct (Z.eqb_spec ((h / 2 ^ 10) mod 2 ^ 5) 0); [lia|].
  apply Z.mul_nonneg_nonneg; [lia|]. apply Z.pow_nonneg. lia.
Qed.

Lemma f2h_nearest f : is32 f -> finite32 f -> Z.abs (val32 f) < 65520 * 2 ^ 149 ->
  nearest_ties_away f (f2h f) /\ neg16 (f2h f) = neg32 f.
Proof.
  intros H Hf Hv. apply finite32_mod in Hf; auto. unfold f2h. cbv zeta.
  unfold nearest_ties_away, dist. unfold val32 in *.
  rewrite (mag32_mod f) in * by auto.
  set (x := f mod 2 ^ 31) in *. assert (0 <= x) by (unfold x; lia).
  destruct (raw_rounds x ltac:(lia)) as [R N]. pose proof (raw_overflow x ltac:(lia)) as OV.
  destruct (Z.ltb_spec x (255 * 2 ^ 23)); [|lia].
  assert (Rx : raw x < 31744). { destruct (neg32 f); lia. }
  pose proof R as (R0 & _). replace (Z.min 31744 (raw x)) with (raw x) by lia. set (q := raw x) in *.
  destruct (sgn16 (neg32 f) q ltac:(lia)) as (S1 & S2 & S3 & S4 & S5). cbv zeta in *.
  set (h := (if neg32 f then 2 ^ 15 else 0) + q) in *.
  split; [|exact S2]. split; [exact S1|]. split; [unfold finite16; rewrite S3; lia|].
  intros h' H' F'. destruct (split16 h' H') as (b' & q' & Q' & ->).
  destruct (sgn16 b' q' Q') as (T1 & T2 & T3 & T4 & T5). cbv zeta in *.
  unfold finite16 in F'. rewrite T3 in F'. assert (Q2 : q' < 31744) by lia.
  unfold val16. rewrite S2, T2, S5, T5.
  destruct (rounds_nearest (mag32 x) q N R q' ltac:(lia)) as [A B]. rewrite !G_mag16 in A, B by lia.
  pose proof (mag16_nonneg q). pose proof (mag16_nonneg q').
  destruct (rounds_nearest (mag32 x) q N R 0 ltac:(lia)) as [A0 _]. rewrite G_0, G_mag16 in A0 by lia.
  set (P := 2 ^ 125) in *. assert (0 < P) by (unfold P; lia).
  assert (BB : mag16 q' * P <= mag16 q * P -> mag16 q' <= mag16 q) by nia.
  assert (0 <= mag16 q' * P) by nia. assert (0 <= mag16 q * P) by nia.
  assert (Z0 : mag16 q' * P = 0 -> mag16 q' = 0) by nia.
  destruct (neg32 f), b'; split; lia.
Qed.

Lemma f2h_overflow f : is32 f -> finite32 f -> 65520 * 2 ^ 149 <= Z.abs (val32 f) -> inf16 (f2h f) /\ neg16 (f2h f) = neg32 f /\ is16 (f2h f).
Proof.
  intros H Hf Hv. apply finite32_mod in Hf; auto. unfold f2h. cbv zeta. unfold val32 in *.
  rewrite (mag32_mod f) in * by auto.
  set (x := f mod 2 ^ 31) in *. assert (0 <= x) by (unfold x; lia).
  destruct (raw_rounds x ltac:(lia)) as [R N]. pose proof (raw_overflow x ltac:(lia)) as OV.
  destruct (Z.ltb_spec x (255 * 2 ^ 23)); [|lia].
  assert (Rx : 31744 <= raw x). { destruct (neg32 f); lia. }
  replace (Z.min 31744 (raw x)) with 31744 by lia.
  destruct (sgn16 (neg32 f) 31744 ltac:(lia)) as (S1 & S2 & S3 & S4 & S5). cbv zeta in *.
  split; [|now split]. unfold inf16. rewrite S3, S4. now split.
Qed.

Lemma f2h_inf f : is32 f -> inf32 f -> inf16 (f2h f) /\ neg16 (f2h f) = neg32 f /\ is16 (f2h f).
Proof.
  intros H [Hf Hm]. rewrite (proj1 (exp32_mod f H)) in Hf. rewrite man32_mod in Hm by auto. unfold f2h. cbv zeta.
  set (x := f mod 2 ^ 31) in *. assert (x = 255 * 2 ^ 23) by lia.
  destruct (Z.ltb_spec x (255 * 2 ^ 23)); [lia|]. destruct (Z.ltb_spec (255 * 2 ^ 23) x); [lia|].
  destruct (sgn16 (neg32 f) 31744 ltac:(lia)) as (S1 & S2 & S3 & S4 & S5). cbv zeta in *.
  split; [|now split]. unfold inf16. rewrite S3, S4. now split.
Qed.

Lemma f2h_nan f : is32 f -> nan32 f -> nan16 (f2h f) /\ is16 (f2h f).
Proof.
  intros H [Hf Hm]. rewrite (proj1 (exp32_mod f H)) in Hf. rewrite man32_mod in Hm by auto. unfold f2h. cbv zeta.
  set (x := f mod 2 ^ 31) in *. assert (255 * 2 ^ 23 < x) by lia.
  destruct (Z.ltb_spec x (255 * 2 ^ 23)); [lia|]. destruct (Z.ltb_spec (255 * 2 ^ 23) x); [|lia].
  destruct (sgn16 (neg32 f) 32256 ltac:(lia)) as (S1 & S2 & S3 & S4 & S5). cbv zeta in *.
  split; [|now auto]. unfold nan16. rewrite S3, S4. split; [reflexivity|discriminate].
Qed.
