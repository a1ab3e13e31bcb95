From Coq Require Import ZArith Lia Bool.
From Verif Require Import Bits SatModel SatSpec SatProofs.
Local Open Scope Z_scope.
Ltac Zify.zify_post_hook ::= Z.div_mod_to_equations.

(** ** averages *)
Lemma shiftr1 x : Z.shiftr x 1 = x / 2.
Proof. rewrite Z.shiftr_div_pow2 by lia. reflexivity. Qed.

Lemma avg_u_generic_ok n a b : 0 < n <= 31 -> in_u n a -> in_u n b ->
  avg_up_u_generic n a b = (a + b + 1) / 2 /\ avg_down_u_generic n a b = (a + b) / 2.
Proof.
  intros Hn Ha Hb. unfold avg_up_u_generic, avg_down_u_generic, in_u in *.
  pose proof (pow2_pos n ltac:(lia)). rewrite !shiftr1.
  assert (2 * 2 ^ n <= 2 ^ 32).
  { rewrite <- Z.pow_succ_r by lia. apply Z.pow_le_mono_r; lia. }
  assert (2 * 2 ^ n <= 2 ^ (2 * n)).
  { rewrite <- Z.pow_succ_r by lia. apply Z.pow_le_mono_r; lia. }
  rewrite (wrapu_id 32) by (unfold in_u; lia).
  rewrite (wrapu_id (2 * n)) by (unfold in_u; lia).
  rewrite !wrapu_id by (unfold in_u; lia). split; reflexivity.
Qed.

Lemma avg_u_m4_ok n a b : 0 < n -> in_u n a -> in_u n b ->
  avg_up_u_m4 n a b = (a + b + 1) / 2 /\ avg_down_u_m4 n a b = (a + b) / 2.
Proof.
  intros Hn Ha Hb. unfold avg_up_u_m4, avg_down_u_m4, in_u in *.
  pose proof (pow2_pos n ltac:(lia)). rewrite !shiftr1.
  assert (2 * 2 ^ n <= 2 ^ (2 * n)).
  { rewrite <- Z.pow_succ_r by lia. apply Z.pow_le_mono_r; lia. }
  rewrite !(wrapu_id (2 * n)) by (unfold in_u; lia).
  rewrite !wrapu_id by (unfold in_u; lia). split; reflexivity.
Qed.

Lemma avg_s_generic_ok n a b : 1 < n <= 31 -> in_s n a -> in_s n b ->
  avg_up_s_generic n a b = (a + b + 1) / 2 /\ avg_down_s_generic n a b = (a + b) / 2.
Proof.
  intros Hn Ha Hb. unfold avg_up_s_generic, avg_down_s_generic, in_s in *.
  pose proof (pow2_pos (n - 1) ltac:(lia)). rewrite !shiftr1.
  assert (2 * 2 ^ (n - 1) <= 2 ^ (32 - 1)).
  { rewrite <- Z.pow_succ_r by lia. apply Z.pow_le_mono_r; lia. }
  assert (2 * 2 ^ (n - 1) <= 2 ^ (2 * n - 1)).
  { rewrite <- Z.pow_succ_r by lia. apply Z.pow_le_mono_r; lia. }
  rewrite (wraps_id 32) by (try lia; unfold in_s; lia).
  rewrite (wraps_id (2 * n)) by (try lia; unfold in_s; lia).
  rewrite !wraps_id by (try lia; unfold in_s; lia). split; reflexivity.
Qed.

(** the sdiv version rounds toward zero *)
Lemma avg_s_m4_ok n a b : 1 < n -> in_s n a -> in_s n b ->
  avg_up_s_m4 n a b = Z.quot (a + b + 1) 2 /\ avg_down_s_m4 n a b = Z.quot (a + b) 2.
Proof.
  intros Hn Ha Hb. unfold avg_up_s_m4, avg_down_s_m4, in_s in *.
  pose proof (pow2_pos (n - 1) ltac:(lia)).
  assert (2 * 2 ^ (n - 1) <= 2 ^ (2 * n - 1)).
  { rewrite <- Z.pow_succ_r by lia. apply Z.pow_le_mono_r; lia. }
  rewrite !(wraps_id (2 * n)) by (try lia; unfold in_s; lia).
  assert (Q : forall x, - (2 * 2 ^ (n - 1)) <= x <= 2 * 2 ^ (n - 1) - 1 ->
              - 2 ^ (n - 1) <= Z.quot x 2 <= 2 ^ (n - 1) - 1).
  { intros x Hx. pose proof (Z.quot_rem' x 2). pose proof (Z.rem_bound_abs x 2 ltac:(lia)).
    destruct (Z.le_gt_cases 0 x).
    - pose proof (Z.rem_nonneg x 2 ltac:(lia) ltac:(lia)). lia.
    - pose proof (Z.rem_nonpos x 2 ltac:(lia) ltac:(lia)). lia. }
  pose proof (Q (a + b + 1) ltac:(lia)). pose proof (Q (a + b) ltac:(lia)).
  rewrite !wraps_id by (try lia; unfold in_s; lia). split; reflexivity.
Qed.

(** ** packed fields *)
Lemma ubyte_ok a k : 0 <= k -> ubyte a k = field_u 8 a k.
Proof.
  intros Hk. unfold ubyte, field_u. rewrite Z.shiftr_div_pow2 by lia.
  change 255 with (Z.ones 8). apply Z.land_ones. lia.
Qed.
Lemma uhalf_ok a k : 0 <= k -> uhalf a k = field_u 16 a k.
Proof.
  intros Hk. unfold uhalf, field_u. rewrite Z.shiftr_div_pow2 by lia.
  change 65535 with (Z.ones 16). apply Z.land_ones. lia.
Qed.
Lemma field_u_range w a k : 0 <= w -> 0 <= field_u w a k < 2 ^ w.
Proof. intros. unfold field_u. apply Z.mod_pos_bound, pow2_pos; lia. Qed.
Lemma sbyte_ok a k : 0 <= k -> sbyte a k = field_s 8 a k.
Proof.
  intros Hk. unfold sbyte, field_s. rewrite ubyte_ok by assumption.
  rewrite wraps_of_u by (try lia; apply field_u_range; lia). reflexivity.
Qed.
Lemma shalf_ok a k : 0 <= k -> shalf a k = field_s 16 a k.
Proof.
  intros Hk. unfold shalf, field_s. rewrite uhalf_ok by assumption.
  rewrite wraps_of_u by (try lia; apply field_u_range; lia). reflexivity.
Qed.
Lemma field_s_range w a k : 0 < w -> - 2 ^ (w - 1) <= field_s w a k < 2 ^ (w - 1).
Proof.
  intros. unfold field_s. pose proof (field_u_range w a k ltac:(lia)).
  pose proof (pow2_split w ltac:(lia)).
  destruct (Z.ltb_spec (field_u w a k) (2 ^ (w - 1))); lia.
Qed.

Lemma fu8 a k : 0 <= field_u 8 a k <= 255.
Proof. pose proof (field_u_range 8 a k ltac:(lia)). lia. Qed.
Lemma fs8 a k : -128 <= field_s 8 a k <= 127.
Proof. pose proof (field_s_range 8 a k ltac:(lia)) as H. change (8 - 1) with 7 in H. lia. Qed.
Lemma fu16 a k : 0 <= field_u 16 a k <= 65535.
Proof. pose proof (field_u_range 16 a k ltac:(lia)). lia. Qed.
Lemma fs16 a k : -32768 <= field_s 16 a k <= 32767.
Proof. pose proof (field_s_range 16 a k ltac:(lia)) as H. change (16 - 1) with 15 in H. lia. Qed.

Lemma wraps32_rel x : wraps_to_s32 x (wraps 32 x).
Proof.
  split.
  - apply in_s_iff, wraps_range; lia.
  - exists ((x + 2 ^ 31) / 2 ^ 32). unfold wraps. change (32 - 1) with 31.
    pose proof (Z.div_mod (x + 2 ^ 31) (2 ^ 32) ltac:(lia)). lia.
Qed.
Lemma wrapu32_rel x : wraps_to_u32 x (wrapu 32 x).
Proof.
  split.
  - apply in_u_iff, wrapu_range; lia.
  - exists (x / 2 ^ 32). unfold wrapu. pose proof (Z.div_mod x (2 ^ 32) ltac:(lia)). lia.
Qed.

Lemma wraps16_id x : -32768 <= x <= 32767 -> wraps 16 x = x.
Proof. intros. apply wraps_id; [lia|]. unfold in_s. change (16 - 1) with 15. lia. Qed.
Lemma wraps32_id x : -2147483648 <= x <= 2147483647 -> wraps 32 x = x.
Proof. intros. apply wraps_id; [lia|]. unfold in_s. change (32 - 1) with 31. lia. Qed.

Ltac dot_tac :=
  repeat match goal with
  | |- context [field_u 8 ?a ?k] => let H := fresh in pose proof (fu8 a k) as H; revert H; generalize (field_u 8 a k); intros
  | |- context [field_s 8 ?a ?k] => let H := fresh in pose proof (fs8 a k) as H; revert H; generalize (field_s 8 a k); intros
  | |- context [field_u 16 ?a ?k] => let H := fresh in pose proof (fu16 a k) as H; revert H; generalize (field_u 16 a k); intros
  | |- context [field_s 16 ?a ?k] => let H := fresh in pose proof (fs16 a k) as H; revert H; generalize (field_s 16 a k); intros
  end.

Lemma p_u8s8 a b i j : -32768 <= field_u 8 a i * field_s 8 b j <= 32767.
Proof. pose proof (fu8 a i). pose proof (fs8 b j). nia. Qed.
Lemma p_s8s8 a b i j : -32768 <= field_s 8 a i * field_s 8 b j <= 32767.
Proof. pose proof (fs8 a i). pose proof (fs8 b j). nia. Qed.
Lemma p_u8u8 a b i j : 0 <= field_u 8 a i * field_u 8 b j <= 65025.
Proof. pose proof (fu8 a i). pose proof (fu8 b j). nia. Qed.
Lemma p_s16s16 a b i j : -1073709056 <= field_s 16 a i * field_s 16 b j <= 1073741824.
Proof. pose proof (fs16 a i). pose proof (fs16 b j). nia. Qed.
Lemma p_u16u16 a b i j : 0 <= field_u 16 a i * field_u 16 b j <= 4294836225.
Proof. pose proof (fu16 a i). pose proof (fu16 b j). nia. Qed.
Lemma p_u16s16 a b i j : -2147450880 <= field_u 16 a i * field_s 16 b j <= 2147385345.
Proof. pose proof (fu16 a i). pose proof (fs16 b j). nia. Qed.

Lemma dot4add_u8i8packed_ok a b acc :
  wraps_to_s32 (dot4 field_u field_s a b + acc) (dot4add_u8i8packed a b acc).
Proof.
  unfold dot4add_u8i8packed, dot4. rewrite !ubyte_ok, !sbyte_ok by lia.
  rewrite !wraps16_id by apply p_u8s8.
  match goal with |- wraps_to_s32 ?x (wraps 32 ?y) => replace x with y by ring end.
  apply wraps32_rel.
Qed.

Lemma dot4add_u8i8packed_sat_ok a b acc : in_s 32 acc ->
  dot4add_u8i8packed_sat a b acc = sat_signed 32 (dot4 field_u field_s a b + acc).
Proof.
  intros Hacc. unfold dot4add_u8i8packed_sat, dot4. rewrite !ubyte_ok, !sbyte_ok by lia.
  rewrite !wraps16_id by apply p_u8s8.
  pose proof (p_u8s8 a b 0 0). pose proof (p_u8s8 a b 1 1).
  pose proof (p_u8s8 a b 2 2). pose proof (p_u8s8 a b 3 3).
  rewrite wraps32_id by lia.
  rewrite saturating_add_s_ok; [f_equal; ring|lia| |assumption].
  unfold in_s; change (32 - 1) with 31; lia.
Qed.

Lemma dot4add_u8u8packed_sat_ok a b acc : in_u 32 acc ->
  dot4add_u8u8packed_sat a b acc = sat_unsigned 32 (dot4 field_u field_u a b + acc).
Proof.
  intros Hacc. unfold dot4add_u8u8packed_sat, dot4. rewrite !ubyte_ok by lia.
  pose proof (p_u8u8 a b 0 0). pose proof (p_u8u8 a b 1 1).
  pose proof (p_u8u8 a b 2 2). pose proof (p_u8u8 a b 3 3).
  rewrite !(wrapu_id 16) by (unfold in_u; lia).
  rewrite wrapu_id by (unfold in_u; lia).
  rewrite saturating_add_u_ok; [f_equal; ring|lia| |assumption].
  unfold in_u; lia.
Qed.

Lemma dot4add_i8i8packed_ok a b acc :
  wraps_to_s32 (dot4 field_s field_s a b + acc) (dot4add_i8i8packed a b acc).
Proof.
  unfold dot4add_i8i8packed, dot4. rewrite !sbyte_ok by lia.
  rewrite !wraps16_id by apply p_s8s8.
  match goal with |- wraps_to_s32 ?x (wraps 32 ?y) => replace x with y by ring end.
  apply wraps32_rel.
Qed.

Lemma dot2add_i16i16packed_ok a b acc :
  wraps_to_s32 (dot2 field_s field_s a b + acc) (dot2add_i16i16packed a b acc).
Proof.
  unfold dot2add_i16i16packed, dot2. rewrite !shalf_ok by lia.
  pose proof (p_s16s16 a b 0 0). pose proof (p_s16s16 a b 1 1).
  rewrite !(wraps32_id (_ * _)) by lia.
  match goal with |- wraps_to_s32 ?x (wraps 32 ?y) => replace x with y by ring end.
  apply wraps32_rel.
Qed.

Lemma dot2add_u16u16packed_ok a b acc :
  wraps_to_u32 (dot2 field_u field_u a b + acc) (dot2add_u16u16packed a b acc).
Proof.
  unfold dot2add_u16u16packed, dot2. rewrite !uhalf_ok by lia.
  pose proof (p_u16u16 a b 0 0). pose proof (p_u16u16 a b 1 1).
  rewrite !(wrapu_id 32 (_ * _)) by (unfold in_u; lia).
  match goal with |- wraps_to_u32 ?x (wrapu 32 ?y) => replace x with y by ring end.
  apply wrapu32_rel.
Qed.

Lemma dot2add_u16i16packed_ok a b acc :
  wraps_to_s32 (dot2 field_u field_s a b + acc) (dot2add_u16i16packed a b acc).
Proof.
  unfold dot2add_u16i16packed, dot2. rewrite !uhalf_ok, !shalf_ok by lia.
  pose proof (p_u16s16 a b 0 0). pose proof (p_u16s16 a b 1 1).
  rewrite !(wraps32_id (_ * _)) by lia.
  match goal with |- wraps_to_s32 ?x (wraps 32 ?y) => replace x with y by ring end.
  apply wraps32_rel.
Qed.

Lemma dot2add_u16u16packed_sat_ok a b acc : in_u 32 acc ->
  dot2add_u16u16packed_sat a b acc = sat_unsigned 32 (dot2 field_u field_u a b + acc).
Proof.
  intros Hacc. unfold dot2add_u16u16packed_sat, dot2. rewrite !uhalf_ok by lia.
  pose proof (p_u16u16 a b 0 0). pose proof (p_u16u16 a b 1 1).
  rewrite !(wrapu_id 32 (_ * _)) by (unfold in_u; lia).
  rewrite (saturating_add_u_ok 32 acc) by (trivial; unfold in_u; lia).
  assert (in_u 32 (sat_unsigned 32 (acc + field_u 16 a 1 * field_u 16 b 1))).
  { unfold in_u, sat_unsigned; lia. }
  rewrite saturating_add_u_ok by (trivial; unfold in_u; lia).
  unfold sat_unsigned, in_u in *. lia.
Qed.

(** the two "intermediate saturation" products: exact whenever the partial sum does not saturate *)
Lemma dot2add_i16i16packed_sat_ok a b acc : in_s 32 acc ->
  dot2 field_s field_s a b < 2 ^ 31 ->
  dot2add_i16i16packed_sat a b acc = sat_signed 32 (dot2 field_s field_s a b + acc).
Proof.
  intros Hacc. unfold dot2add_i16i16packed_sat, dot2. rewrite !shalf_ok by lia.
  pose proof (p_s16s16 a b 0 0). pose proof (p_s16s16 a b 1 1). intros Hd.
  rewrite !(wraps32_id (_ * _)) by lia.
  rewrite (saturating_add_s_ok 32 (field_s 16 a 1 * _)); try (unfold in_s; change (32 - 1) with 31; lia).
  assert (in_s 32 (sat_signed 32 (field_s 16 a 1 * field_s 16 b 1 + field_s 16 a 0 * field_s 16 b 0))).
  { unfold in_s, sat_signed. change (32 - 1) with 31. lia. }
  rewrite saturating_add_s_ok by (trivial; lia).
  unfold sat_signed, in_s in *. change (32 - 1) with 31 in *. lia.
Qed.

Lemma dot2add_u16i16packed_sat_ok a b acc : in_s 32 acc ->
  signed_value 32 (acc + field_u 16 a 1 * field_s 16 b 1) ->
  dot2add_u16i16packed_sat a b acc = sat_signed 32 (dot2 field_u field_s a b + acc).
Proof.
  intros Hacc Hp. unfold dot2add_u16i16packed_sat, dot2. rewrite !uhalf_ok, !shalf_ok by lia.
  pose proof (p_u16s16 a b 0 0). pose proof (p_u16s16 a b 1 1).
  rewrite !(wraps32_id (_ * _)) by lia.
  rewrite (saturating_add_s_ok 32 acc); try assumption; try (unfold in_s; change (32 - 1) with 31; lia).
  assert (E : sat_signed 32 (acc + field_u 16 a 1 * field_s 16 b 1) = acc + field_u 16 a 1 * field_s 16 b 1).
  { unfold sat_signed, signed_value in *. lia. }
  rewrite E. apply in_s_iff in Hp.
  rewrite saturating_add_s_ok; try assumption; try lia; [f_equal; ring|].
  unfold in_s; change (32 - 1) with 31; lia.
Qed.

(** the two byte-product fallbacks with too narrow / unsigned intermediates: exact on small fields *)
Lemma dot4add_u8u8packed_small a b acc :
  (forall k, 0 <= k < 4 -> field_u 8 a k * field_u 8 b k <= 32767) ->
  wraps_to_u32 (dot4 field_u field_u a b + acc) (dot4add_u8u8packed a b acc).
Proof.
  intros Hs. unfold dot4add_u8u8packed, dot4. rewrite !ubyte_ok by lia.
  pose proof (p_u8u8 a b 0 0). pose proof (p_u8u8 a b 1 1).
  pose proof (p_u8u8 a b 2 2). pose proof (p_u8u8 a b 3 3).
  pose proof (Hs 0 ltac:(lia)). pose proof (Hs 1 ltac:(lia)).
  pose proof (Hs 2 ltac:(lia)). pose proof (Hs 3 ltac:(lia)).
  rewrite !wraps16_id by lia.
  rewrite !(wrapu_id 32 (_ * _)) by (unfold in_u; lia).
  match goal with |- wraps_to_u32 ?x (wrapu 32 ?y) => replace x with y by ring end.
  apply wrapu32_rel.
Qed.

Lemma dot4add_i8i8packed_sat_small a b acc : in_s 32 acc ->
  (forall k, 0 <= k < 4 -> 0 <= field_s 8 a k /\ 0 <= field_s 8 b k) ->
  dot4add_i8i8packed_sat a b acc = sat_signed 32 (dot4 field_s field_s a b + acc).
Proof.
  intros Hacc Hs.
  assert (E : forall x k, 0 <= field_s 8 x k -> field_u 8 x k = field_s 8 x k /\ field_s 8 x k <= 127).
  { intros x k Hx. pose proof (fs8 x k). pose proof (fu8 x k). revert Hx H. unfold field_s.
    change (2 ^ (8 - 1)) with 128. change (2 ^ 8) with 256.
    destruct (Z.ltb_spec (field_u 8 x k) 128); lia. }
  unfold dot4add_i8i8packed_sat, dot4. rewrite !ubyte_ok by lia.
  destruct (Hs 0 ltac:(lia)) as [A0 B0]. destruct (Hs 1 ltac:(lia)) as [A1 B1].
  destruct (Hs 2 ltac:(lia)) as [A2 B2]. destruct (Hs 3 ltac:(lia)) as [A3 B3].
  destruct (E a 0 A0) as [-> ?]; destruct (E a 1 A1) as [-> ?]; destruct (E a 2 A2) as [-> ?];
  destruct (E a 3 A3) as [-> ?]; destruct (E b 0 B0) as [-> ?]; destruct (E b 1 B1) as [-> ?];
  destruct (E b 2 B2) as [-> ?]; destruct (E b 3 B3) as [-> ?].
  pose proof (p_s8s8 a b 0 0). pose proof (p_s8s8 a b 1 1).
  pose proof (p_s8s8 a b 2 2). pose proof (p_s8s8 a b 3 3).
  rewrite !wraps16_id by lia. rewrite wraps32_id by lia.
  rewrite saturating_add_s_ok; [f_equal; ring|lia| |assumption].
  unfold in_s; change (32 - 1) with 31; lia.
Qed.
