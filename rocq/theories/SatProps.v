(** C21, C22, C27: saturating arithmetic, averages, packed dot products. *)
From Coq Require Import ZArith Lia.
From Verif Require Import Bits SatModel SatSpec SatProofs DotProofs.
Local Open Scope Z_scope.

(** ** C21: the saturating functions return the exact result clamped to the type's range, for every
    width n (8, 16, 32, 64 in the library) and all operands. *)
Theorem C21_saturating_add_signed n a b : 0 < n -> signed_value n a -> signed_value n b ->
  saturating_add_s n a b = sat_signed n (a + b).
Proof. intros. apply saturating_add_s_ok; try apply in_s_iff; assumption. Qed.

Theorem C21_saturating_add_unsigned n a b : 0 < n -> unsigned_value n a -> unsigned_value n b ->
  saturating_add_u n a b = sat_unsigned n (a + b).
Proof. intros. apply saturating_add_u_ok; try apply in_u_iff; trivial; lia. Qed.

Theorem C21_saturating_sub_signed n a b : 0 < n -> signed_value n a -> signed_value n b ->
  saturating_sub_s n a b = sat_signed n (a - b).
Proof. intros. apply saturating_sub_s_ok; try apply in_s_iff; assumption. Qed.

Theorem C21_saturating_sub_unsigned n a b : 0 < n -> unsigned_value n a -> unsigned_value n b ->
  saturating_sub_u n a b = sat_unsigned n (a - b).
Proof. intros. apply saturating_sub_u_ok; try apply in_u_iff; trivial; lia. Qed.

Theorem C21_saturating_div_signed n a b : 0 < n -> signed_value n a -> signed_value n b -> b <> 0 ->
  saturating_div_s n a b = Some (sat_signed n (Z.quot a b)).
Proof. intros. apply saturating_div_s_ok; try apply in_s_iff; assumption. Qed.

Theorem C21_saturating_div_unsigned n a b : 0 < n -> unsigned_value n a -> unsigned_value n b -> b <> 0 ->
  saturating_div_u n a b = Some (sat_unsigned n (a / b)).
Proof. intros. apply saturating_div_u_ok; try apply in_u_iff; trivial; lia. Qed.

Theorem C21_saturating_mul_signed n a b : 0 < n -> signed_value n a -> signed_value n b ->
  saturating_mul_s n a b = sat_signed n (a * b).
Proof. intros. apply saturating_mul_s_ok; try apply in_s_iff; assumption. Qed.

Theorem C21_saturating_mul_unsigned n a b : 0 < n -> unsigned_value n a -> unsigned_value n b ->
  saturating_mul_u n a b = sat_unsigned n (a * b).
Proof. intros. apply saturating_mul_u_ok; try apply in_u_iff; trivial; lia. Qed.

Theorem C21_saturating_mul_int64 a b : signed_value 64 a -> signed_value 64 b ->
  saturating_mul_s64 a b = sat_signed 64 (a * b).
Proof. intros. apply saturating_mul_s64_ok; apply in_s_iff; assumption. Qed.

(** The 64-bit unsigned product is exact when it fits; when it does not fit it is only guaranteed to
    land in the top 2^32 values instead of being the maximum (next theorem). *)
Theorem C21_saturating_mul_uint64_partial a b : unsigned_value 64 a -> unsigned_value 64 b ->
  (a * b <= 2 ^ 64 - 1 -> saturating_mul_u64 a b = a * b) /\
  (2 ^ 64 - 1 < a * b -> 2 ^ 64 - 2 ^ 32 <= saturating_mul_u64 a b <= 2 ^ 64 - 1).
Proof.
  intros Ha Hb. apply in_u_iff in Ha, Hb. split; intros H.
  - apply saturating_mul_u64_noov; trivial; lia.
  - apply saturating_mul_u64_ov; trivial; lia.
Qed.

Theorem C21_saturating_mul_uint64_refuted :
  exists a b, unsigned_value 64 a /\ unsigned_value 64 b /\
    saturating_mul_u64 a b <> sat_unsigned 64 (a * b).
Proof. exists (2 ^ 48), (2 ^ 16). repeat split; vm_compute; discriminate. Qed.

(** The widened versions used for varying 8- and 16-bit operands. *)
Theorem C21_novec_signed n a b : 1 < n -> signed_value n a -> signed_value n b ->
  novec_s Z.add n a b = sat_signed n (a + b) /\ novec_s Z.sub n a b = sat_signed n (a - b).
Proof.
  intros Hn Ha Hb. unfold signed_value in *. pose proof (pow2_split n ltac:(lia)).
  split; apply novec_s_ok; lia.
Qed.

Theorem C21_novec_unsigned n a b : 1 < n -> unsigned_value n a -> unsigned_value n b ->
  novec_u Z.add n a b = sat_unsigned n (a + b) /\ novec_u Z.sub n a b = sat_unsigned n (a - b).
Proof.
  intros Hn Ha Hb. unfold unsigned_value in *.
  split; apply novec_u_ok; lia.
Qed.

(** Non-vacuity: operands of every kind, with and without saturation. *)
Example C21_ex_sat : saturating_add_s 32 2147483647 1 = 2147483647 /\
  saturating_add_s 32 (-2147483648) (-1) = -2147483648 /\
  saturating_sub_u 8 3 5 = 0 /\ saturating_div_s 16 (-32768) (-1) = Some 32767 /\
  saturating_mul_s64 (-4294967296) 4294967296 = - 2 ^ 63 /\
  saturating_add_s 8 100 (-3) = 97.
Proof. vm_compute. repeat split. Qed.
Example C21_ex_hyps : signed_value 32 2147483647 /\ signed_value 32 (-2147483648) /\ unsigned_value 8 255.
Proof. repeat split; vm_compute; discriminate. Qed.

(** ** C22: averages. avg_up is (a+b+1)/2 and avg_down is (a+b)/2, rounded down, in exact arithmetic. *)
Theorem C22_avg_unsigned n a b : 0 < n <= 31 -> unsigned_value n a -> unsigned_value n b ->
  avg_up_u_generic n a b = (a + b + 1) / 2 /\ avg_down_u_generic n a b = (a + b) / 2 /\
  avg_up_u_m4 n a b = (a + b + 1) / 2 /\ avg_down_u_m4 n a b = (a + b) / 2.
Proof.
  intros Hn Ha Hb. apply in_u_iff in Ha, Hb.
  destruct (avg_u_generic_ok n a b Hn Ha Hb) as [-> ->].
  destruct (avg_u_m4_ok n a b ltac:(lia) Ha Hb) as [-> ->]. repeat split.
Qed.

Theorem C22_avg_signed_generic n a b : 1 < n <= 31 -> signed_value n a -> signed_value n b ->
  avg_up_s_generic n a b = (a + b + 1) / 2 /\ avg_down_s_generic n a b = (a + b) / 2.
Proof. intros Hn Ha Hb. apply in_s_iff in Ha, Hb. apply avg_s_generic_ok; assumption. Qed.

(** The m4 targets round the signed averages toward zero ... *)
Theorem C22_avg_signed_m4_partial n a b : 1 < n -> signed_value n a -> signed_value n b ->
  avg_up_s_m4 n a b = Z.quot (a + b + 1) 2 /\ avg_down_s_m4 n a b = Z.quot (a + b) 2.
Proof. intros Hn Ha Hb. apply in_s_iff in Ha, Hb. apply avg_s_m4_ok; assumption. Qed.

(** ... so that avg_down does not round down and avg_up not up for negative odd sums. *)
Theorem C22_avg_signed_m4_refuted :
  exists a b, signed_value 8 a /\ signed_value 8 b /\ avg_down_s_m4 8 a b <> (a + b) / 2 /\
    avg_down_s_m4 8 a b <> avg_down_s_generic 8 a b.
Proof. exists (-1), 0. repeat split; vm_compute; discriminate. Qed.

Example C22_ex : avg_up_u_m4 8 255 254 = 255 /\ avg_down_s_generic 8 (-128) 127 = -1 /\
  avg_up_s_generic 8 (-128) 127 = 0.
Proof. vm_compute. repeat split. Qed.

(** ** C27: dot products.  For all packed operands (any bit pattern) and accumulators. *)
Theorem C27_dot4add_u8i8packed a b acc :
  wraps_to_s32 (dot4 field_u field_s a b + acc) (dot4add_u8i8packed a b acc).
Proof. apply dot4add_u8i8packed_ok. Qed.
Theorem C27_dot4add_u8i8packed_sat a b acc : signed_value 32 acc ->
  dot4add_u8i8packed_sat a b acc = sat_signed 32 (dot4 field_u field_s a b + acc).
Proof. intros H. apply dot4add_u8i8packed_sat_ok, in_s_iff, H. Qed.
Theorem C27_dot4add_u8u8packed_sat a b acc : unsigned_value 32 acc ->
  dot4add_u8u8packed_sat a b acc = sat_unsigned 32 (dot4 field_u field_u a b + acc).
Proof. intros H. apply dot4add_u8u8packed_sat_ok, in_u_iff, H. Qed.
Theorem C27_dot4add_i8i8packed a b acc :
  wraps_to_s32 (dot4 field_s field_s a b + acc) (dot4add_i8i8packed a b acc).
Proof. apply dot4add_i8i8packed_ok. Qed.
Theorem C27_dot2add_i16i16packed a b acc :
  wraps_to_s32 (dot2 field_s field_s a b + acc) (dot2add_i16i16packed a b acc).
Proof. apply dot2add_i16i16packed_ok. Qed.
Theorem C27_dot2add_u16u16packed a b acc :
  wraps_to_u32 (dot2 field_u field_u a b + acc) (dot2add_u16u16packed a b acc).
Proof. apply dot2add_u16u16packed_ok. Qed.
Theorem C27_dot2add_u16i16packed a b acc :
  wraps_to_s32 (dot2 field_u field_s a b + acc) (dot2add_u16i16packed a b acc).
Proof. apply dot2add_u16i16packed_ok. Qed.
Theorem C27_dot2add_u16u16packed_sat a b acc : unsigned_value 32 acc ->
  dot2add_u16u16packed_sat a b acc = sat_unsigned 32 (dot2 field_u field_u a b + acc).
Proof. intros H. apply dot2add_u16u16packed_sat_ok, in_u_iff, H. Qed.
(** the products whose fallback saturates an intermediate sum: exact when that sum fits *)
Theorem C27_dot2add_i16i16packed_sat_partial a b acc : signed_value 32 acc ->
  dot2 field_s field_s a b < 2 ^ 31 ->
  dot2add_i16i16packed_sat a b acc = sat_signed 32 (dot2 field_s field_s a b + acc).
Proof. intros H. apply dot2add_i16i16packed_sat_ok, in_s_iff, H. Qed.
Theorem C27_dot2add_u16i16packed_sat_partial a b acc : signed_value 32 acc ->
  signed_value 32 (acc + field_u 16 a 1 * field_s 16 b 1) ->
  dot2add_u16i16packed_sat a b acc = sat_signed 32 (dot2 field_u field_s a b + acc).
Proof. intros H. apply dot2add_u16i16packed_sat_ok, in_s_iff, H. Qed.

(** the products with narrow intermediates: exact when the products fit int16 / fields are nonnegative *)
Theorem C27_dot4add_u8u8packed_partial a b acc :
  (forall k, 0 <= k < 4 -> field_u 8 a k * field_u 8 b k <= 32767) ->
  wraps_to_u32 (dot4 field_u field_u a b + acc) (dot4add_u8u8packed a b acc).
Proof. apply dot4add_u8u8packed_small. Qed.
Theorem C27_dot4add_i8i8packed_sat_partial a b acc : signed_value 32 acc ->
  (forall k, 0 <= k < 4 -> 0 <= field_s 8 a k /\ 0 <= field_s 8 b k) ->
  dot4add_i8i8packed_sat a b acc = sat_signed 32 (dot4 field_s field_s a b + acc).
Proof. intros H. apply dot4add_i8i8packed_sat_small, in_s_iff, H. Qed.

(** Four fallbacks do not compute the documented value. *)
Theorem C27_dot4add_u8u8packed_refuted : exists a b acc, unsigned_value 32 a /\ unsigned_value 32 b /\
  unsigned_value 32 acc /\ ~ wraps_to_u32 (dot4 field_u field_u a b + acc) (dot4add_u8u8packed a b acc).
Proof.
  exists 255, 255, 0.
  split; [split; vm_compute; discriminate|]. split; [split; vm_compute; discriminate|].
  split; [split; vm_compute; discriminate|].
  intros [_ [q Hq]].
  assert (E : dot4add_u8u8packed 255 255 0 = 4294966785) by (vm_compute; reflexivity).
  assert (E2 : dot4 field_u field_u 255 255 = 65025) by (vm_compute; reflexivity).
  rewrite E, E2 in Hq. lia.
Qed.
Theorem C27_dot4add_i8i8packed_sat_refuted : exists a b acc, unsigned_value 32 a /\ unsigned_value 32 b /\
  signed_value 32 acc /\ dot4add_i8i8packed_sat a b acc <> sat_signed 32 (dot4 field_s field_s a b + acc).
Proof. exists 255, 1, 0. repeat split; vm_compute; discriminate. Qed.
Theorem C27_dot2add_i16i16packed_sat_refuted : exists a b acc, unsigned_value 32 a /\ unsigned_value 32 b /\
  signed_value 32 acc /\ dot2add_i16i16packed_sat a b acc <> sat_signed 32 (dot2 field_s field_s a b + acc).
Proof. exists (2 ^ 31 + 2 ^ 15), (2 ^ 31 + 2 ^ 15), (-1). repeat split; vm_compute; discriminate. Qed.
Theorem C27_dot2add_u16i16packed_sat_refuted : exists a b acc, unsigned_value 32 a /\ unsigned_value 32 b /\
  signed_value 32 acc /\ dot2add_u16i16packed_sat a b acc <> sat_signed 32 (dot2 field_u field_s a b + acc).
Proof. exists (65535 * 65536 + 1), (32767 * 65536 + 65535), (2 ^ 31 - 1). repeat split; vm_compute; discriminate. Qed.

Example C27_ex : dot4 field_u field_s 4278190335 4286578687 = 255 * (-1) + 255 * (-1) /\
  dot4add_u8i8packed_sat 4278190335 4286578687 7 = -503 /\
  dot2 field_s field_s 4294967295 65537 < 2 ^ 31 /\
  signed_value 32 (5 + field_u 16 4294967295 1 * field_s 16 65537 1).
Proof. repeat split; vm_compute; congruence. Qed.

Print Assumptions C21_saturating_mul_int64.
Print Assumptions C21_saturating_div_signed.
Print Assumptions C22_avg_signed_generic.
Print Assumptions C27_dot2add_u16u16packed_sat.
