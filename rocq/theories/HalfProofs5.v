(** Random number generator states and sRGB conversions. *)
From Coq Require Import ZArith List Bool Lia SpecFloat.
From Verif Require Import Bits FpModel FpProofs HalfModel HalfSpec HalfProofs HalfProofs2 HalfProofs3 HalfProofs4.
Import ListNotations.
Local Open Scope Z_scope.

(** ** The four shift-register components of the generator *)

Definition tstep (q sh s mask z : Z) : Z :=
  Z.lxor (shl32 (Z.land z mask) s) (shr32 (Z.lxor (shl32 z q) z) sh).

Lemma random_tstep s : fst (random s) =
  Rng (tstep 6 13 18 4294967294 (z1 s)) (tstep 2 27 2 4294967288 (z2 s))
      (tstep 13 21 7 4294967280 (z3 s)) (tstep 3 12 13 4294967168 (z4 s)).
Proof. reflexivity. Qed.

Lemma shl32_bits x n i : 0 <= n -> 0 <= i -> Z.testbit (shl32 x n) i = (i <? 32) && (n <=? i) && Z.testbit x (i - n).
Proof.
  intros Hn Hi. unfold shl32, wrapu. rewrite <- Z.shiftl_mul_pow2 by lia. destruct (Z.ltb_spec i 32).
  - rewrite Z.mod_pow2_bits_low by lia. cbn [andb]. destruct (Z.leb_spec n i); cbn [andb].
    + apply Z.shiftl_spec. lia.
    + apply Z.shiftl_spec_low. lia.
  - rewrite Z.mod_pow2_bits_high by lia. reflexivity.
Qed.

Lemma shr32_bits x n i : 0 <= n -> 0 <= i -> Z.testbit (shr32 x n) i = Z.testbit x (i + n).
Proof. intros Hn Hi. unfold shr32. rewrite <- Z.shiftr_div_pow2 by lia. apply Z.shiftr_spec. lia. Qed.

Lemma small_bits z c : 0 <= c -> 0 <= z < 2 ^ 32 -> (forall j, c <= j < 32 -> Z.testbit z j = false) -> z < 2 ^ c.
Proof.
  intros Hc Hz H. assert (E : z = z mod 2 ^ c).
  { apply Z.bits_inj'. intros i Hi. destruct (Z.lt_ge_cases i c).
    - rewrite Z.mod_pow2_bits_low by lia. reflexivity.
    - rewrite Z.mod_pow2_bits_high by lia. destruct (Z.lt_ge_cases i 32); [apply H; lia|].
      apply (in_u_high 32); [exact Hz|lia]. }
  rewrite E. apply Z.mod_pos_bound. apply pow2_pos. lia.
Qed.

Lemma tstep_range q sh s mask z : 0 <= q -> 0 <= sh -> 0 <= s -> 0 <= z < 2 ^ 32 -> 0 <= tstep q sh s mask z < 2 ^ 32.
Proof.
  intros Hq Hsh Hs Hz. unfold tstep.
  assert (forall x n, 0 <= shl32 x n < 2 ^ 32) as A by (intros; unfold shl32, wrapu; apply Z.mod_pos_bound; lia).
  apply (in_u_lxor 32); [lia|apply A|]. unfold shr32.
  assert (B : 0 <= Z.lxor (shl32 z q) z < 2 ^ 32) by (apply (in_u_lxor 32); [lia|apply A|exact Hz]).
  unfold in_u. split; [apply Z.div_pos; [lia|apply pow2_pos; lia]|].
  apply Z.le_lt_trans with (Z.lxor (shl32 z q) z); [|lia]. apply Z.div_le_upper_bound; [apply pow2_pos; lia|].
  assert (1 <= 2 ^ sh) by (pose proof (pow2_pos sh); lia). nia.
Qed.

Lemma tstep_nondegenerate q sh s c z : 0 < q -> 0 < s -> 0 <= c -> sh = 32 - c - s -> 0 <= sh -> c <= 32 - s - q ->
  0 <= z < 2 ^ 32 -> 2 ^ c <= z -> 2 ^ c <= tstep q sh s (Z.shiftl (Z.ones (32 - c)) c) z.
Proof.
  intros Hq Hs Hc Esh Hsh Hb Hz Hn. destruct (Z.lt_ge_cases (tstep q sh s (Z.shiftl (Z.ones (32 - c)) c) z) (2 ^ c)) as [L|L]; [|exact L].
  exfalso. assert (z < 2 ^ c); [|lia]. apply small_bits; [lia|exact Hz|].
  set (z' := tstep q sh s (Z.shiftl (Z.ones (32 - c)) c) z) in *.
  assert (R : 0 <= z') by (apply tstep_range; lia).
  assert (Bz : forall i, c <= i -> Z.testbit z' i = false).
  { intros i Hi. apply (in_u_high c); [unfold in_u; lia|lia]. }
  assert (Bit : forall i, 0 <= i < 32 -> Z.testbit z' i =
     xorb ((s <=? i) && (Z.testbit z (i - s) && (c <=? i - s)))
          (xorb ((i + sh <? 32) && (q <=? i + sh) && Z.testbit z (i + sh - q)) (Z.testbit z (i + sh)))).
  { intros i Hi. unfold z', tstep. rewrite Z.lxor_spec, shl32_bits, shr32_bits, Z.lxor_spec, shl32_bits by lia.
    destruct (Z.ltb_spec i 32); [|lia]. cbn [andb]. f_equal. destruct (Z.leb_spec s i); [|reflexivity]. cbn [andb].
    rewrite Z.land_spec. f_equal. destruct (Z.leb_spec c (i - s)).
    - rewrite Z.shiftl_spec by lia. apply Z.ones_spec_low. lia.
    - apply Z.shiftl_spec_low. lia. }
  assert (Hi32 : forall i, 32 <= i -> Z.testbit z i = false) by (intros; apply (in_u_high 32); [exact Hz|lia]).
  assert (P : forall t, 0 <= t -> c + t < 32 -> Z.testbit z (c + t) = false).
  { intros t Ht. generalize Ht. pattern t. revert t Ht. apply Z_lt_induction. intros t IHt T Hj.
    set (j := c + t) in *. destruct (Z.lt_ge_cases j (32 - s)) as [A|A].
    - pose proof (Bit (j + s) ltac:(lia)) as E. rewrite Bz in E by lia.
      replace (j + s - s) with j in E by lia. rewrite (Hi32 (j + s + sh)) in E by lia.
      destruct (Z.ltb_spec (j + s + sh) 32); [lia|]. destruct (Z.leb_spec s (j + s)); [|lia]. destruct (Z.leb_spec c j); [|lia].
      cbn [andb xorb] in E. destruct (Z.testbit z j); [discriminate|reflexivity].
    - pose proof (Bit (j - sh) ltac:(lia)) as E. rewrite Bz in E by lia. replace (j - sh + sh) with j in E by lia.
      destruct (Z.ltb_spec j 32); [|lia]. destruct (Z.leb_spec q j); [|lia].
      assert (IH : Z.testbit z (j - q) = false).
      { replace (j - q) with (c + (t - q)) by lia. apply IHt; lia. }
      rewrite IH in E.
      assert (F : (s <=? j - sh) && (Z.testbit z (j - sh - s) && (c <=? j - sh - s)) = false).
      { destruct (Z.leb_spec c (j - sh - s)); [lia|]. now rewrite !andb_false_r. }
      rewrite F in E. cbn [andb xorb] in E. destruct (Z.testbit z j); [discriminate|reflexivity]. }
  intros j Hj. replace j with (c + (j - c)) by lia. apply P; lia.
Qed.

(* L'Ecuyer's conditions on the components: otherwise a component is stuck *)
Definition good (s : rng) : Prop :=
  2 ^ 1 <= z1 s < 2 ^ 32 /\ 2 ^ 3 <= z2 s < 2 ^ 32 /\ 2 ^ 4 <= z3 s < 2 ^ 32 /\ 2 ^ 7 <= z4 s < 2 ^ 32.

Lemma random_good s : good s -> good (fst (random s)).
Proof.
  intros (A & B & C & D). rewrite random_tstep. unfold good. cbn [z1 z2 z3 z4].
  change 4294967294 with (Z.shiftl (Z.ones (32 - 1)) 1). change 4294967288 with (Z.shiftl (Z.ones (32 - 3)) 3).
  change 4294967280 with (Z.shiftl (Z.ones (32 - 4)) 4). change 4294967168 with (Z.shiftl (Z.ones (32 - 7)) 7).
  repeat match goal with |- _ /\ _ => split end;
    solve [apply tstep_nondegenerate; lia | apply tstep_range; lia].
Qed.

Fixpoint nstates (n : nat) (s : rng) : rng := match n with O => s | S n => fst (random (nstates n s)) end.

Lemma nstates_good n s : good s -> good (nstates n s).
Proof. intros H. induction n; [exact H|]. cbn [nstates]. now apply random_good. Qed.

Lemma seed_good seed : 2 <= seed < 2 ^ 32 -> seed mod 2 ^ 16 <> 0 -> seed / 8 <> 3203395592 / 8 -> good (seed_rng seed).
Proof.
  intros H L X. unfold good, seed_rng. cbn [z1 z2 z3 z4].
  assert (R : forall x n, 0 <= shl32 x n < 2 ^ 32) by (intros; unfold shl32, wrapu; apply Z.mod_pos_bound; lia).
  assert (D : forall x n, 0 <= x < 2 ^ 32 -> 0 <= n -> 0 <= shr32 x n < 2 ^ 32).
  { intros x n Hx Hn. unfold shr32. split; [apply Z.div_pos; [lia|apply pow2_pos; lia]|].
    apply Z.le_lt_trans with x; [|lia]. apply Z.div_le_upper_bound; [apply pow2_pos; lia|]. pose proof (pow2_pos n). nia. }
  assert (A : forall m, 0 <= m < 2 ^ 32 -> 0 <= Z.land seed m < 2 ^ 32) .
  { intros m Hm. apply (in_u_land 32); [lia|unfold in_u; lia|exact Hm]. }
  assert (Lor : forall x y, 0 <= x < 2 ^ 32 -> 0 <= y < 2 ^ 32 -> 0 <= Z.lor x y < 2 ^ 32) by (intros; apply (in_u_lor 32); [lia| |]; assumption).
  assert (Ge : forall x y, 0 <= x -> 0 <= y -> x <= Z.lor x y).
  { intros x y Hx Hy. assert (E : Z.lor x y = x + Z.ldiff y x).
    { rewrite Z.add_nocarry_lxor.
      - apply Z.bits_inj'. intros i Hi. rewrite Z.lor_spec, Z.lxor_spec, Z.ldiff_spec. now destruct (Z.testbit x i), (Z.testbit y i).
      - apply Z.bits_inj'. intros i Hi. rewrite Z.land_spec, Z.ldiff_spec, Z.bits_0. now destruct (Z.testbit x i), (Z.testbit y i). }
    assert (0 <= Z.ldiff y x) by (apply Z.ldiff_nonneg; left; exact Hy). lia. }
  change 65535 with (2 ^ 16 - 1). change 255 with (2 ^ 8 - 1). rewrite !land_ones_low by lia.
  change 65280 with (Z.shiftl (Z.ones 8) 8).
  assert (B2 : Z.land seed (Z.shiftl (Z.ones 8) 8) = seed mod 2 ^ 16 / 2 ^ 8 * 2 ^ 8).
  { rewrite <- Z.shiftl_mul_pow2, <- Z.shiftr_div_pow2 by lia. apply Z.bits_inj'. intros i Hi. rewrite Z.land_spec.
    destruct (Z.lt_ge_cases i 8).
    - rewrite !Z.shiftl_spec_low by lia. apply andb_false_r.
    - rewrite !Z.shiftl_spec, Z.shiftr_spec by lia. replace (i - 8 + 8) with i by lia. destruct (Z.lt_ge_cases i 16).
      + rewrite Z.ones_spec_low, Z.mod_pow2_bits_low by lia. apply andb_true_r.
      + rewrite Z.ones_spec_high, Z.mod_pow2_bits_high by lia. apply andb_false_r. }
  rewrite B2. set (lo := seed mod 2 ^ 16) in *. assert (Hlo : 0 < lo < 2 ^ 16) by (unfold lo in *; lia).
  split; [lia|]. split; [split|split; [split|split]].
  - destruct (Z.lt_ge_cases (Z.lxor seed 3203395597) (2 ^ 3)) as [S|S]; [exfalso|exact S].
    assert (0 <= Z.lxor seed 3203395597) by (apply Z.lxor_nonneg; lia).
    assert (E : Z.lxor (Z.shiftr seed 3) (Z.shiftr 3203395597 3) = 0).
    { rewrite <- Z.shiftr_lxor. rewrite Z.shiftr_div_pow2 by lia. apply Z.div_small. lia. }
    apply Z.lxor_eq in E. rewrite !Z.shiftr_div_pow2 in E by lia. apply X. exact E.
  - apply (in_u_lxor 32); [lia|unfold in_u; lia|unfold in_u; lia].
  - apply Z.le_trans with (shl32 lo 16); [unfold shl32, wrapu; rewrite Z.mod_small; lia|].
    apply Ge; [apply R|apply D; lia].
  - apply Lor; [apply R|apply D; lia].
  - assert (P : 2 ^ 7 <= Z.lor (shl32 (seed mod 2 ^ 8) 24) (shl32 (lo / 2 ^ 8 * 2 ^ 8) 8)).
    { destruct (Z.eq_dec (seed mod 2 ^ 8) 0) as [E|E].
      - apply Z.le_trans with (shl32 (lo / 2 ^ 8 * 2 ^ 8) 8).
        + unfold shl32, wrapu. rewrite Z.mod_small by lia. unfold lo in *. lia.
        + rewrite Z.lor_comm. apply Ge; apply R.
      - apply Z.le_trans with (shl32 (seed mod 2 ^ 8) 24).
        + unfold shl32, wrapu. rewrite Z.mod_small by lia. lia.
        + apply Ge; apply R. }
    eapply Z.le_trans; [exact P|]. eapply Z.le_trans; [|apply Ge].
    + apply Ge; [apply Lor; apply R|]. apply D; [apply A|]; lia.
    + apply Lor; [apply Lor; apply R|]. apply D; [apply A|]; lia.
    + apply D; [apply A|]; lia.
  - repeat (apply Lor); try apply R; apply D; try lia; apply A; lia.
Qed.

(* a seed whose first component never leaves zero *)
Lemma seed0_stuck n : z1 (nstates n (seed_rng 0)) = 0.
Proof. induction n; [reflexivity|]. cbn [nstates]. rewrite random_tstep. cbn [z1]. rewrite IHn. reflexivity. Qed.

(** ** sRGB *)

Definition NZ := 956301312.
Definition AO := 1065353215.

Definition clampv (f : Z) : Z :=
  if (255 * 2 ^ 23 <? f mod 2 ^ 31) || neg32 f then NZ else Z.min (Z.max f NZ) AO.

Lemma decode_nan f : is32 f -> 255 * 2 ^ 23 < f mod 2 ^ 31 -> f32_of_bits f = S754_nan.
Proof.
  intros H N. unfold f32_of_bits. cbv zeta. pose proof (proj1 (exp32_mod f H)) as E. pose proof (man32_mod f H) as M.
  unfold exp32, man32 in *. rewrite E, M. destruct (Z.eqb_spec (f mod 2 ^ 31 / 2 ^ 23) 0); [lia|].
  destruct (Z.eqb_spec (f mod 2 ^ 31 / 2 ^ 23) 255); [|lia]. destruct (Z.eqb_spec ((f mod 2 ^ 31) mod 2 ^ 23) 0); [lia|]. reflexivity.
Qed.

Lemma decode_neg f : is32 f -> neg32 f = true -> f mod 2 ^ 31 <= 255 * 2 ^ 23 ->
  f32_of_bits f = S754_zero true \/ f32_of_bits f = S754_infinity true \/ exists m e, f32_of_bits f = S754_finite true m e.
Proof.
  intros H N L. unfold f32_of_bits. cbv zeta.
  assert (T : Z.testbit f 31 = true) by (rewrite (testbit_top 31) by (cbn; unfold is32 in H; lia); exact N). rewrite T.
  pose proof (proj1 (exp32_mod f H)) as E. pose proof (man32_mod f H) as M. unfold exp32, man32 in *. rewrite E, M.
  destruct (Z.eqb_spec (f mod 2 ^ 31 / 2 ^ 23) 0).
  - destruct ((f mod 2 ^ 31) mod 2 ^ 23); eauto.
  - destruct (Z.eqb_spec (f mod 2 ^ 31 / 2 ^ 23) 255).
    + destruct (Z.eqb_spec ((f mod 2 ^ 31) mod 2 ^ 23) 0); [eauto|lia].
    + destruct ((f mod 2 ^ 31) mod 2 ^ 23 + 2 ^ 23) eqn:Q; eauto; exfalso; pose proof (Z.mod_pos_bound (f mod 2 ^ 31) (2 ^ 23)); lia.
Qed.

Lemma decode_pinf : f32_of_bits (255 * 2 ^ 23) = S754_infinity false.
Proof. reflexivity. Qed.

Lemma decode_NZ : exists m e, f32_of_bits NZ = S754_finite false m e.
Proof. unfold NZ. cbn. eauto. Qed.
Lemma decode_AO : exists m e, f32_of_bits AO = S754_finite false m e.
Proof. unfold AO. cbn. eauto. Qed.

Inductive maxmin : (Z -> Z -> Z) -> (Z -> Z -> Z) -> Prop :=
| MMnum : maxmin fmaxnum32 fminnum32
| MMps : maxmin fmaxps32 fminps32.

Lemma clamp_ok fmax fmin f : maxmin fmax fmin -> is32 f -> fmin (fmax f NZ) AO = clampv f.
Proof.
  intros Hm H. unfold clampv.
  assert (Emin : forall a, 0 <= a < 255 * 2 ^ 23 -> fmin a AO = Z.min a AO).
  { intros a Ha. destruct Hm; [apply fminnum_is_min|apply fminps_is_min]; unfold AO; lia. }
  assert (NZr : 0 <= NZ < 255 * 2 ^ 23) by (unfold NZ; lia).
  destruct (Z.ltb_spec (255 * 2 ^ 23) (f mod 2 ^ 31)) as [N|N]; cbn [orb].
  - pose proof (decode_nan f H N) as D.
    assert (E : fmax f NZ = NZ).
    { destruct Hm; [unfold fmaxnum32, isnan32; now rewrite D|]. unfold fmaxps32, flt32. rewrite D. unfold SFltb.
      destruct decode_NZ as (m & e & ->). reflexivity. }
    rewrite E, Emin by lia. reflexivity.
  - destruct (neg32 f) eqn:Ng.
    + assert (E : fmax f NZ = NZ).
      { destruct decode_NZ as (m & e & Dz).
        destruct Hm; unfold fmaxnum32, fmaxps32, isnan32, flt32; rewrite Dz; destruct (decode_neg f H Ng N) as [-> | [-> |(mm & ee & ->)]]; reflexivity. }
      rewrite E, Emin by lia. reflexivity.
    + assert (F : f mod 2 ^ 31 = f) by (unfold neg32 in Ng; unfold is32 in H; apply Z.leb_gt in Ng; apply Z.mod_small; lia).
      rewrite F in N. unfold is32 in H. destruct (Z.eq_dec f (255 * 2 ^ 23)) as [->|Ne].
      * assert (E : fmax (255 * 2 ^ 23) NZ = 255 * 2 ^ 23) by (destruct Hm; reflexivity). rewrite E.
        destruct Hm; reflexivity.
      * assert (E : fmax f NZ = Z.max f NZ).
        { destruct Hm; unfold fmaxnum32, fmaxps32; rewrite ?isnan32_pos, flt32_pos by lia.
          - destruct (Z.ltb_spec f NZ); lia.
          - destruct (Z.ltb_spec NZ f); lia. }
        rewrite E, Emin by lia. reflexivity.
Qed.

Lemma clampv_range f : NZ <= clampv f <= AO.
Proof. unfold clampv, NZ, AO. destruct (_ || _); lia. Qed.

(* value of the piecewise linear interpolation, entry [i], offset [t] *)
Definition entry (i : nat) : Z := nth i srgb_table 0.
Definition interp (i : nat) (t : Z) : Z := ((entry i / 2 ^ 16) * 2 ^ 9 + entry i mod 2 ^ 16 * t) / 2 ^ 16.

Lemma srgb_interp fmax fmin f : maxmin fmax fmin -> is32 f ->
  let c := clampv f in
  float_to_srgb8 fmax fmin f = Some (interp (Z.to_nat ((c - NZ) / 2 ^ 20)) (c mod 2 ^ 20 / 2 ^ 12)).
Proof.
  intros Hm H. cbv zeta. unfold float_to_srgb8. cbv zeta. fold NZ AO. rewrite clamp_ok by assumption.
  pose proof (clampv_range f) as R. set (c := clampv f) in *. unfold NZ, AO in R.
  assert (E1 : shr32 (wrapu 32 (c - NZ)) 20 = (c - NZ) / 2 ^ 20).
  { unfold shr32, wrapu, NZ. rewrite Z.mod_small; [reflexivity|lia]. }
  rewrite E1. assert (I : 0 <= (c - NZ) / 2 ^ 20 < 104) by (unfold NZ; lia).
  set (i := Z.to_nat ((c - NZ) / 2 ^ 20)). assert (Li : (i < length srgb_table)%nat) by (cbn; unfold i; lia).
  rewrite (nth_error_nth' srgb_table 0 Li). fold (entry i).
  assert (B : 0 <= entry i < 2 ^ 31).
  { assert (A : forallb (fun x => (0 <=? x) && (x <? 2 ^ 31)) srgb_table = true) by (vm_compute; reflexivity).
    rewrite forallb_forall in A. specialize (A (entry i) (nth_In _ _ Li)). apply andb_true_iff in A. rewrite Z.leb_le, Z.ltb_lt in A. exact A. }
  f_equal. change 65535 with (2 ^ 16 - 1). change 255 with (2 ^ 8 - 1). rewrite !land_ones_low by lia.
  unfold shl32, shr32, interp, wrapu.
  assert (T : (c / 2 ^ 12) mod 2 ^ 8 = c mod 2 ^ 20 / 2 ^ 12) by lia. rewrite T.
  set (t := c mod 2 ^ 20 / 2 ^ 12). assert (0 <= t < 256) by (unfold t; lia).
  set (b := entry i / 2 ^ 16). assert (0 <= b < 2 ^ 15) by (unfold b; lia).
  set (s := entry i mod 2 ^ 16). assert (0 <= s < 2 ^ 16) by (unfold s; lia).
  assert (0 <= s * t < 2 ^ 16 * 256) by nia.
  rewrite (Z.mod_small (b * 2 ^ 9)), (Z.mod_small (s * t)) by lia. rewrite Z.mod_small by lia. reflexivity.
Qed.

Lemma interp_mono_t i t t' : 0 <= t <= t' -> interp i t <= interp i t'.
Proof. intros H. unfold interp. apply Z.div_le_mono; [lia|]. assert (0 <= entry i mod 2 ^ 16) by lia. nia. Qed.

Lemma table_ok i : (i < 104)%nat -> 0 <= interp i 0 /\ interp i 255 <= 255 /\ ((S i < 104)%nat -> interp i 255 <= interp (S i) 0).
Proof.
  intros H. assert (A : forallb (fun i => (0 <=? interp i 0) && (interp i 255 <=? 255) && ((104 <=? S i)%nat || (interp i 255 <=? interp (S i) 0))) (seq 0 104) = true) by (vm_compute; reflexivity).
  rewrite forallb_forall in A. specialize (A i ltac:(apply in_seq; lia)).
  apply andb_true_iff in A. destruct A as [A C]. apply andb_true_iff in A. destruct A as [A B].
  apply Z.leb_le in A, B. split; [exact A|]. split; [exact B|]. intros L.
  apply orb_true_iff in C. destruct C as [C|C]; [apply Nat.leb_le in C; lia|now apply Z.leb_le].
Qed.

Lemma interp_steps d i : (i + S d < 104)%nat -> interp i 255 <= interp (i + S d) 0.
Proof.
  induction d; intros H.
  - replace (i + 1)%nat with (S i) by lia. apply table_ok; lia.
  - apply Z.le_trans with (interp (i + S d) 0); [apply IHd; lia|].
    apply Z.le_trans with (interp (i + S d) 255); [apply interp_mono_t; lia|].
    replace (i + S (S d))%nat with (S (i + S d)) by lia. apply table_ok; lia.
Qed.

Definition srgb_of (c : Z) : Z := interp (Z.to_nat ((c - NZ) / 2 ^ 20)) (c mod 2 ^ 20 / 2 ^ 12).

Lemma srgb_of_range c : NZ <= c <= AO -> 0 <= srgb_of c <= 255.
Proof.
  unfold NZ, AO. intros H. unfold srgb_of, NZ. set (i := Z.to_nat ((c - 956301312) / 2 ^ 20)).
  assert (i < 104)%nat by (unfold i; lia). destruct (table_ok i) as (A & B & _); [lia|].
  pose proof (interp_mono_t i 0 (c mod 2 ^ 20 / 2 ^ 12)). pose proof (interp_mono_t i (c mod 2 ^ 20 / 2 ^ 12) 255). lia.
Qed.

Lemma srgb_of_mono c c' : NZ <= c -> c <= c' -> c' <= AO -> srgb_of c <= srgb_of c'.
Proof.
  unfold NZ, AO. intros A B C. unfold srgb_of, NZ.
  assert (Q : (c - 956301312) / 2 ^ 20 <= (c' - 956301312) / 2 ^ 20) by (apply Z.div_le_mono; lia).
  destruct (Z.eq_dec ((c - 956301312) / 2 ^ 20) ((c' - 956301312) / 2 ^ 20)) as [E|E].
  - rewrite E. apply interp_mono_t. lia.
  - set (i := Z.to_nat ((c - 956301312) / 2 ^ 20)). set (i' := Z.to_nat ((c' - 956301312) / 2 ^ 20)).
    assert (i < i' < 104)%nat by (unfold i, i'; lia).
    apply Z.le_trans with (interp i 255); [apply interp_mono_t; lia|].
    apply Z.le_trans with (interp i' 0); [|apply interp_mono_t; lia].
    replace i' with (i + S (i' - i - 1))%nat by lia. apply interp_steps. lia.
Qed.

Lemma val_pos f : 0 <= f < 2 ^ 31 -> val32 f = V f.
Proof.
  intros H. unfold val32, neg32. destruct (Z.leb_spec (2 ^ 31) f); [lia|].
  unfold mag32, exp32, man32, V. replace ((f / 2 ^ 23) mod 2 ^ 8) with (f / 2 ^ 23) by (symmetry; apply Z.mod_small; lia). reflexivity.
Qed.

Lemma mag32_nonneg f : 0 <= mag32 f.
Proof.
  unfold mag32, exp32, man32. destruct (Z.eqb_spec ((f / 2 ^ 23) mod 2 ^ 8) 0); [lia|].
  apply Z.mul_nonneg_nonneg; [lia|]. apply Z.pow_nonneg. lia.
Qed.

Lemma clampv_mono f g : is32 f -> is32 g -> ~ nan32 f -> ~ nan32 g -> val32 f <= val32 g -> clampv f <= clampv g.
Proof.
  intros Hf Hg Nf Ng L.
  assert (K : forall x, is32 x -> ~ nan32 x -> f mod 2 ^ 31 = f mod 2 ^ 31 -> (255 * 2 ^ 23 <? x mod 2 ^ 31) = false).
  { intros x Hx Nx _. apply Z.ltb_ge. destruct (Z.lt_ge_cases (255 * 2 ^ 23) (x mod 2 ^ 31)) as [Q|Q]; [|exact Q].
    exfalso. apply Nx. unfold nan32. rewrite (proj1 (exp32_mod x Hx)), man32_mod by exact Hx. split; lia. }
  unfold clampv at 1. rewrite (K f) by auto. cbn [orb]. destruct (neg32 f) eqn:Sf; [apply clampv_range|].
  assert (Pf : 0 <= f < 2 ^ 31) by (unfold neg32 in Sf; unfold is32 in Hf; apply Z.leb_gt in Sf; lia).
  rewrite (val_pos f Pf) in L.
  unfold clampv. rewrite (K g) by auto. cbn [orb]. destruct (neg32 g) eqn:Sg.
  - unfold val32 in L. rewrite Sg in L. pose proof (mag32_nonneg g).
    destruct (Z.eq_dec f 0) as [->|N]; [unfold NZ, AO; lia|]. pose proof (V_lt 0 f ltac:(lia)) as Q. change (V 0) with 0 in Q. lia.
  - assert (Pg : 0 <= g < 2 ^ 31) by (unfold neg32 in Sg; unfold is32 in Hg; apply Z.leb_gt in Sg; lia).
    rewrite (val_pos g Pg) in L. destruct (Z.lt_ge_cases g f) as [Q|Q]; [|lia]. pose proof (V_lt g f ltac:(lia)). lia.
Qed.

(** srgb8_to_float: the 256 results, with and without contraction *)
Inductive maddop : (Z -> Z -> Z -> Z) -> Prop := MAfma : maddop ffma32 | MAtwo : maddop fmuladd32.

Definition srgb_checks (madd : Z -> Z -> Z -> Z) : bool :=
  forallb (fun i => let a := srgb8_to_float madd i in let b := srgb8_to_float madd (i + 1) in
                    (0 <=? a) && (a <? b) && (b <? 127 * 2 ^ 23) &&
                    (srgb_of (Z.min (Z.max a NZ) AO) =? i) && (srgb_of (Z.min (Z.max b NZ) AO) =? i + 1))
          (map Z.of_nat (seq 0 255)).

Lemma srgb_checks_ok madd : maddop madd -> srgb_checks madd = true.
Proof. intros [|]; vm_compute; reflexivity. Qed.

Lemma srgb8_step madd i : maddop madd -> 0 <= i < 255 ->
  let a := srgb8_to_float madd i in let b := srgb8_to_float madd (i + 1) in
  0 <= a < b /\ b < 127 * 2 ^ 23 /\ srgb_of (Z.min (Z.max a NZ) AO) = i /\ srgb_of (Z.min (Z.max b NZ) AO) = i + 1.
Proof.
  intros M H. cbv zeta. pose proof (srgb_checks_ok madd M) as C. unfold srgb_checks in C. rewrite forallb_forall in C.
  specialize (C i ltac:(apply in_map_iff; exists (Z.to_nat i); split; [lia|apply in_seq; lia])). cbv zeta in C.
  rewrite !andb_true_iff in C. destruct C as ((((A & B) & C) & D) & E).
  apply Z.leb_le in A. apply Z.ltb_lt in B, C. apply Z.eqb_eq in D, E. repeat split; assumption.
Qed.

Lemma srgb8_range madd i : maddop madd -> 0 <= i <= 255 ->
  0 <= srgb8_to_float madd i < 127 * 2 ^ 23 /\ srgb_of (Z.min (Z.max (srgb8_to_float madd i) NZ) AO) = i.
Proof.
  intros M H. destruct (Z.eq_dec i 255) as [->|N].
  - destruct (srgb8_step madd 254 M ltac:(lia)) as (A & B & C & D). cbv zeta in *. change (254 + 1) with 255 in *. split; [lia|exact D].
  - destruct (srgb8_step madd i M ltac:(lia)) as (A & B & C & D). cbv zeta in *. split; [lia|exact C].
Qed.

Lemma srgb8_increasing madd i j : maddop madd -> 0 <= i -> i < j -> j <= 255 -> srgb8_to_float madd i < srgb8_to_float madd j.
Proof.
  intros M Hi Hij Hj. replace j with (i + 1 + Z.of_nat (Z.to_nat (j - i - 1))) in * by lia.
  set (n := Z.to_nat (j - i - 1)) in *. clearbody n. clear Hij. induction n.
  - rewrite Z.add_0_r in *. apply (srgb8_step madd i M). lia.
  - apply Z.lt_trans with (srgb8_to_float madd (i + 1 + Z.of_nat n)); [apply IHn; lia|].
    replace (i + 1 + Z.of_nat (S n)) with (i + 1 + Z.of_nat n + 1) by lia. apply (srgb8_step madd _ M). lia.
Qed.
