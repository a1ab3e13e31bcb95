(** C70: round, floor, ceil and trunc where the target has no instruction for them. *)
From Coq Require Import ZArith Lia Bool SpecFloat.
From Verif Require Import Bits FloatModel FloatSpec FloatProofs FloatProofs2 FloatProofs3 FloatProofs4 FloatProofs5 FloatProofs6 FloatProofs7.
Local Open Scope Z_scope.

Lemma K32 : 0 <= bits_8388608 < 2 ^ (width f32 - 1) /\ finite f32 bits_8388608 /\ units f32 bits_8388608 = 2 ^ 23 * unit1 f32.
Proof. unfold finite. repeat split; try (vm_compute; congruence). Qed.
Lemma K64 : 0 <= bits_4_5036e15 < 2 ^ (width f64 - 1) /\ finite f64 bits_4_5036e15 /\ units f64 bits_4_5036e15 = 4503600000000000 * unit1 f64.
Proof. unfold finite. repeat split; try (vm_compute; congruence). Qed.
Lemma wf32 : wf f32. Proof. apply format_wf. right. left. reflexivity. Qed.

(** float on sse2 and wasm: up to 2^23 in magnitude, round gives the nearest integer, the even one of two, with the sign of its
    argument... *)
Theorem C70_round_float_partial : forall x, pattern f32 x -> finite f32 x -> Z.abs (units f32 x) <= 2 ^ 23 * unit1 f32 ->
  exists r, is_integer f32 (round_float x) r /\ nearest_even (units f32 x) (unit1 f32) r /\ (negative f32 (round_float x) <-> negative f32 x).
Proof.
  intros x Px Fx H. destruct K32 as (A & B & C).
  destruct (magic_round_ok f32 wf32 _ _ A B C ltac:(vm_compute; split; congruence) eq_refl x Px Fx H) as (r & ? & ? & ? & _). exists r. auto.
Qed.
(** ...floor the largest integer not above it and ceil the smallest not below it. *)
Theorem C70_floor_float_partial : forall x, pattern f32 x -> finite f32 x -> Z.abs (units f32 x) <= 2 ^ 23 * unit1 f32 ->
  exists r, is_integer f32 (magic_floor f32 bits_8388608 x) r /\ floor_of (units f32 x) (unit1 f32) r.
Proof.
  intros x Px Fx H. destruct K32 as (A & B & C). exact (magic_floor_ok f32 wf32 _ _ A B C ltac:(vm_compute; split; congruence) eq_refl x Px Fx H).
Qed.
Theorem C70_ceil_float_partial : forall x, pattern f32 x -> finite f32 x -> Z.abs (units f32 x) <= 2 ^ 23 * unit1 f32 ->
  exists r, is_integer f32 (magic_ceil f32 bits_8388608 x) r /\ ceil_of (units f32 x) (unit1 f32) r.
Proof.
  intros x Px Fx H. destruct K32 as (A & B & C). exact (magic_ceil_ok f32 wf32 _ _ A B C ltac:(vm_compute; split; congruence) eq_refl x Px Fx H).
Qed.
(* -2.5 *)
Example C70_float_live : pattern f32 3223322624 /\ finite f32 3223322624 /\ 2 * units f32 3223322624 = - 5 * unit1 f32 /\
  round_float 3223322624 = 3221225472 (* -2 *) /\ magic_floor f32 bits_8388608 3223322624 = 3225419776 (* -3 *) /\
  magic_ceil f32 bits_8388608 3223322624 = 3221225472.
Proof. unfold pattern, finite. repeat split; vm_compute; congruence. Qed.

(** double on Xe: the same up to 4503599254740992, which is 2^53 - 4.5036e15. *)
Theorem C70_round_double_xe_partial : forall x, pattern f64 x -> finite f64 x -> Z.abs (units f64 x) <= 4503599254740992 * unit1 f64 ->
  (exists r, is_integer f64 (round_double_xe x) r /\ nearest_even (units f64 x) (unit1 f64) r /\ (negative f64 (round_double_xe x) <-> negative f64 x)) /\
  (exists r, is_integer f64 (magic_floor f64 bits_4_5036e15 x) r /\ floor_of (units f64 x) (unit1 f64) r) /\
  exists r, is_integer f64 (magic_ceil f64 bits_4_5036e15 x) r /\ ceil_of (units f64 x) (unit1 f64) r.
Proof.
  intros x Px Fx H. destruct K64 as (A & B & C). assert (HK : 2 ^ mw f64 <= 4503600000000000 <= 2 ^ prec f64) by (vm_compute; split; congruence).
  split; [|split].
  - destruct (magic_round_ok f64 wf64 _ _ A B C HK eq_refl x Px Fx H) as (r & ? & ? & ? & _). exists r. auto.
  - exact (magic_floor_ok f64 wf64 _ _ A B C HK eq_refl x Px Fx H).
  - exact (magic_ceil_ok f64 wf64 _ _ A B C HK eq_refl x Px Fx H).
Qed.
Example C70_double_live : round_double_xe (1023 * 2 ^ 52 + 2 ^ 51) = 1024 * 2 ^ 52. (* 1.5 -> 2 *)
Proof. reflexivity. Qed.

(** float16 on targets without the instruction: for every finite value, uniform and varying alike. *)
Theorem C70_round_half : forall x, pattern f16 x -> finite f16 x -> round_half_varying x = round_half_uniform x /\
  exists r, is_integer f16 (round_half_uniform x) r /\ nearest_even (units f16 x) (unit1 f16) r /\ (negative f16 (round_half_uniform x) <-> negative f16 x).
Proof. intros x Px Fx. split; [apply half_varying_uniform|exact (half_ok x Px Fx)]. Qed.
Example C70_half_live : round_half_varying 15872 (* 1.5 *) = 16384 (* 2 *) /\ round_half_varying 31743 (* 65504 *) = 31743.
Proof. split; reflexivity. Qed.

(** Infinities stay what they are and NaN stays NaN. *)
Theorem C70_special : forall x,
  (pattern f32 x -> (infinite f32 x -> round_float x = x) /\ (not_a_number f32 x -> not_a_number f32 (round_float x))) /\
  (pattern f64 x -> (infinite f64 x -> round_double_xe x = x) /\ (not_a_number f64 x -> not_a_number f64 (round_double_xe x))) /\
  (pattern f16 x -> (infinite f16 x -> round_half_varying x = x) /\ (not_a_number f16 x -> not_a_number f16 (round_half_varying x))).
Proof.
  intros x. destruct K32 as (A & B & _). destruct K64 as (C & D & _). split; [|split]; intros Px; split; intros H.
  - exact (magic_inf f32 wf32 _ x A B Px H).
  - apply (magic_nan f32 wf32 _ x Px H).
  - exact (magic_inf f64 wf64 _ x C D Px H).
  - apply (magic_nan f64 wf64 _ x Px H).
  - rewrite half_varying_uniform. exact (half_inf x Px H).
  - rewrite half_varying_uniform. apply (half_nan x Px H).
Qed.
Example C70_special_live : infinite f32 2139095040 /\ pattern f32 2139095040 /\ not_a_number f32 2143289344.
Proof. unfold infinite, not_a_number, pattern. repeat split; vm_compute; congruence. Qed.

(** trunc for double on Xe: rounds towards zero below 2^53 in magnitude (exponent field below 1076), and keeps infinities and NaN.  The
    uniform version keeps the sign, the varying version from magnitude 1 on. *)
Theorem C70_trunc_xe_partial : forall keep x, pattern f64 x ->
  (exponent f64 x < 1076 -> exists y r, trunc_double_xe keep x = Some y /\ is_integer f64 y r /\ trunc_of (units f64 x) (unit1 f64) r /\
     (keep = true \/ unit1 f64 <= Z.abs (units f64 x) -> (negative f64 y <-> negative f64 x))) /\
  (infinite f64 x \/ not_a_number f64 x -> trunc_double_xe keep x = Some x).
Proof. intros keep x Px. split; [exact (trunc_xe keep x Px)|exact (trunc_xe_special keep x Px)]. Qed.
Example C70_trunc_live : trunc_double_xe true (1024 * 2 ^ 52 + 3 * 2 ^ 50) (* 3.5 *) = Some (1024 * 2 ^ 52 + 2 ^ 51).
Proof. reflexivity. Qed.

(** From 2^23 on, where every float is an integer already, round and floor change odd numbers on sse2 and wasm: 8388609 becomes 8388608. *)
Theorem C70_round_large_refuted : let x := bits_8388608 + 1 in
  pattern f32 x /\ finite f32 x /\ units f32 x = 8388609 * unit1 f32 /\
  units f32 (round_float x) = 8388608 * unit1 f32 /\ units f32 (magic_floor f32 bits_8388608 x) = 8388608 * unit1 f32.
Proof. unfold pattern, finite. repeat split; vm_compute; congruence. Qed.
(** ceil changes some, too: 8388611 becomes 8388612. *)
Theorem C70_ceil_large_refuted : let x := bits_8388608 + 3 in
  pattern f32 x /\ finite f32 x /\ units f32 x = 8388611 * unit1 f32 /\ units f32 (magic_ceil f32 bits_8388608 x) = 8388612 * unit1 f32.
Proof. unfold pattern, finite. repeat split; vm_compute; congruence. Qed.
(** double on Xe goes wrong right after the bound of C70_round_double_xe_partial, because 4.5036e15 is not 2^52: the integer
    4503599254740993 is rounded to 4503599254740992. *)
Theorem C70_xe_double_refuted : let x := 1074 * 2 ^ 52 + (4503599254740993 - 2 ^ 51) * 2 in
  pattern f64 x /\ finite f64 x /\ units f64 x = 4503599254740993 * unit1 f64 /\ units f64 (round_double_xe x) = 4503599254740992 * unit1 f64.
Proof. unfold pattern, finite. repeat split; vm_compute; congruence. Qed.
(** double on sse2 and wasm calls the C library's round, which takes half-way cases away from zero: round(0.5) is 1 and round(2.5) is 3,
    while float and the other targets give 0 and 2. *)
Theorem C70_double_half_way_refuted : let x := 1022 * 2 ^ 52 in let x' := 1024 * 2 ^ 52 + 2 ^ 50 in
  2 * units f64 x = unit1 f64 /\ units f64 (libm_round f64 x) = unit1 f64 /\ round_double_xe x = 0 /\
  2 * units f64 x' = 5 * unit1 f64 /\ units f64 (libm_round f64 x') = 3 * unit1 f64 /\ units f64 (round_double_xe x') = 2 * unit1 f64.
Proof. repeat split; vm_compute; congruence. Qed.
(** trunc for double on Xe shifts by a negative amount for every finite number from 2^53 on: the result is poison. *)
Theorem C70_trunc_xe_refuted : forall keep x, pattern f64 x -> 1076 <= exponent f64 x < 2047 -> trunc_double_xe keep x = None.
Proof. exact trunc_xe_poison. Qed.
(** Its varying version loses the sign of zero that the uniform version keeps: trunc(-0.5). *)
Theorem C70_trunc_sign_refuted : let x := 2 ^ 63 + 1022 * 2 ^ 52 in
  trunc_double_xe true x = Some (2 ^ 63) /\ trunc_double_xe false x = Some 0.
Proof. split; reflexivity. Qed.
(** floor(-0.0) and ceil(-0.5) are +0 on sse2, wasm and (double) Xe; the instructions of the other targets give -0. *)
Theorem C70_floor_sign_refuted : let minus_zero := 2 ^ 31 in let minus_half := 2 ^ 31 + 126 * 2 ^ 23 in
  magic_floor f32 bits_8388608 minus_zero = 0 /\ magic_ceil f32 bits_8388608 minus_half = 0.
Proof. split; reflexivity. Qed.

Print Assumptions C70_round_float_partial.
Print Assumptions C70_round_double_xe_partial.
Print Assumptions C70_round_half.
Print Assumptions C70_special.
Print Assumptions C70_trunc_xe_partial.
