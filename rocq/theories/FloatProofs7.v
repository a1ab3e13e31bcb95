(** trunc for double on Xe. *)
From Coq Require Import ZArith Lia Bool SpecFloat.
From Verif Require Import Bits FpProofs FloatModel FloatSpec FloatProofs FloatProofs2 FloatProofs3 FloatProofs4 FloatProofs5.
Local Open Scope Z_scope.

Lemma wf64 : wf f64. Proof. apply format_wf. right. right. reflexivity. Qed.
Lemma top_mask x : 0 <= x < 2 ^ 64 -> Z.land x (2 ^ 64 - 2 ^ 52) = x - x mod 2 ^ 52.
Proof.
  intros H. replace (2 ^ 64 - 2 ^ 52) with (Z.shiftl (Z.ones 12) 52) by reflexivity.
  assert (Q : Z.land x (Z.shiftl (Z.ones 12) 52) = Z.shiftl (Z.shiftr x 52) 52).
  { apply Z.bits_inj'. intros i Hi. rewrite Z.land_spec, !Z.shiftl_spec by lia. destruct (Z.ltb_spec i 52).
    - rewrite !(Z.testbit_neg_r _ (i - 52)) by lia. apply andb_false_r.
    - rewrite Z.shiftr_spec by lia. replace (i - 52 + 52) with i by lia. destruct (Z.ltb_spec (i - 52) 12).
      + rewrite Z.ones_spec_low by lia. apply andb_true_r.
      + rewrite Z.ones_spec_high by lia. rewrite andb_false_r. symmetry. destruct (Z.eq_dec x 0) as [->|]; [apply Z.testbit_0_l|].
        apply Z.bits_above_log2; [lia|]. apply Z.lt_le_trans with 64; [|lia]. apply Z.log2_lt_pow2; lia. }
  rewrite Q, Z.shiftl_mul_pow2, Z.shiftr_div_pow2 by lia. pose proof (Z.div_mod x (2 ^ 52) ltac:(lia)). lia.
Qed.

Lemma lor_high x c : 0 <= x < 2 ^ 64 -> 0 <= c < 2 ^ 52 -> Z.lor (Z.land x (2 ^ 64 - 2 ^ 52)) c = x - x mod 2 ^ 52 + c.
Proof.
  intros H Hc. rewrite <- (top_mask x H). rewrite <- Z.lxor_lor, <- Z.add_nocarry_lxor; [reflexivity| |].
  all: rewrite <- Z.land_assoc; assert (Q : Z.land (2 ^ 64 - 2 ^ 52) c = 0); [|rewrite Q; apply Z.land_0_r].
  all: replace (2 ^ 64 - 2 ^ 52) with (Z.shiftl (Z.ones 12) 52) by reflexivity; apply Z.bits_inj'; intros i Hi; rewrite Z.land_spec, Z.shiftl_spec, Z.bits_0 by lia;
    (destruct (Z.ltb_spec i 52); [rewrite Z.testbit_neg_r by lia; reflexivity|]); (destruct (Z.eq_dec c 0) as [->|]; [rewrite Z.testbit_0_l; apply andb_false_r|]);
    rewrite (Z.bits_above_log2 c i); [apply andb_false_r|lia|apply Z.lt_le_trans with 52; [apply Z.log2_lt_pow2; lia|lia]].
Qed.

Lemma exp64 x : 0 <= x -> Z.land (x / 2 ^ 52) 2047 = exponent f64 x.
Proof. intros H. change 2047 with (Z.ones 11). rewrite Z.land_ones by lia. reflexivity. Qed.
Lemma frac64 x : 0 <= x -> Z.land x (2 ^ 52 - 1) = fraction f64 x.
Proof. intros H. change (2 ^ 52 - 1) with (Z.ones 52). rewrite Z.land_ones by lia. reflexivity. Qed.
Lemma sign64 x : pattern f64 x -> Z.land x (2 ^ 63) = if 2 ^ 63 <=? x then 2 ^ 63 else 0.
Proof. intros H. apply land_top; [lia|exact H]. Qed.

Lemma trunc_sym n d r : trunc_of n d r -> trunc_of (- n) d (- r).
Proof. unfold trunc_of, floor_of, ceil_of. intros [A B]. split; intros; [destruct B|destruct A]; try lia; split; lia. Qed.

(** Below 2^53 in magnitude: exponent field below 1023 + 53. *)
Lemma trunc_xe keep x : pattern f64 x -> exponent f64 x < 1076 ->
  exists y r, trunc_double_xe keep x = Some y /\ is_integer f64 y r /\ trunc_of (units f64 x) (unit1 f64) r /\
    (keep = true \/ unit1 f64 <= Z.abs (units f64 x) -> (negative f64 y <-> negative f64 x)).
Proof.
  intros Px HX. pose proof wf64 as W. assert (X0 : 0 <= x) by apply Px. assert (X1 : 0 <= x < 2 ^ 64) by exact Px.
  pose proof (fraction_range f64 W x) as FR. pose proof (exponent_range f64 W x) as ER. change (mw f64) with 52 in FR. change (ew f64) with 11 in ER.
  pose proof (fields f64 W x Px) as FX. change (width f64 - 1) with 63 in FX. change (mw f64) with 52 in FX.
  assert (EU : unit1 f64 = 2 ^ 1074) by reflexivity.
  unfold trunc_double_xe. rewrite exp64, frac64, sign64 by auto. set (e := exponent f64 x) in *. set (m := fraction f64 x) in *.
  destruct (Z.eqb_spec e 2047) as [B|_]; [lia|]. destruct (Z.leb_spec (e - 1023) (-1)) as [L|L].
  - (* |x| < 1 *)
    assert (MG : 0 <= magnitude f64 x < 2 ^ 1074).
    { unfold magnitude. fold e. fold m. change (mw f64) with 52. destruct (Z.eqb_spec e 0) as [E0|E0].
      - split; [lia|]. apply Z.lt_trans with (2 ^ 52); [lia|]. apply Z.pow_lt_mono_r; lia.
      - pose proof (pow2_pos (e - 1) ltac:(lia)). split; [nia|]. apply Z.lt_le_trans with (2 ^ 53 * 2 ^ (e - 1)); [apply Z.mul_lt_mono_pos_r; lia|].
        rewrite <- Z.pow_add_r by lia. apply Z.pow_le_mono_r; lia. }
    assert (TR : trunc_of (units f64 x) (unit1 f64) 0).
    { rewrite EU. unfold trunc_of, floor_of, ceil_of, units. destruct (2 ^ (width f64 - 1) <=? x); split; intros; split; lia. }
    assert (SM : ~ unit1 f64 <= Z.abs (units f64 x)) by (rewrite EU; unfold units; destruct (2 ^ (width f64 - 1) <=? x); lia).
    clear MG. clearbody e m. destruct (Z.leb_spec (2 ^ 63) x) as [S|S].
    + destruct keep; cbv iota.
      * exists (2 ^ 63), 0. split; [reflexivity|]. split; [repeat split; vm_compute; congruence|]. split; [exact TR|]. intros _. unfold negative. change (width f64 - 1) with 63. lia.
      * exists 0, 0. split; [reflexivity|]. split; [repeat split; vm_compute; congruence|]. split; [exact TR|]. intros [H|H]; [discriminate|contradiction].
    + assert (Q : (if keep then Z.lor 0 0 else Z.land 0 0) = 0) by (destruct keep; reflexivity). rewrite Q.
      exists 0, 0. split; [reflexivity|]. split; [repeat split; vm_compute; congruence|]. split; [exact TR|]. intros _. unfold negative. change (width f64 - 1) with 63. lia.
  - (* the low bits are cleared *)
    set (t := 52 - (e - 1023)). assert (HT : 0 <= t <= 52) by (unfold t; lia). pose proof (pow2_pos t ltac:(lia)) as PT.
    unfold lshr64, shl64. replace ((0 <=? t) && (t <? 64)) with true by (symmetry; apply andb_true_iff; split; [apply Z.leb_le|apply Z.ltb_lt]; lia).
    pose proof (Z.div_mod m (2 ^ t) ltac:(lia)) as DM. pose proof (Z.mod_pos_bound m (2 ^ t) PT) as MB.
    assert (CB : 0 <= m / 2 ^ t * 2 ^ t < 2 ^ 52) by (assert (0 <= m / 2 ^ t) by (apply Z.div_pos; lia); nia).
    rewrite Z.mod_small by (assert (2 ^ 52 < 2 ^ 64) by reflexivity; lia).
    rewrite (lor_high x _ X1 CB). change (x mod 2 ^ 52) with m.
    set (c := m / 2 ^ t * 2 ^ t) in *.
    destruct (of_fields f64 W (2 ^ 63 <=? x) e c ER CB) as (Py & Ey & Ry & Sy). change (mw f64) with 52 in Py, Ey, Ry, Sy. change (width f64 - 1) with 63 in Sy.
    assert (EY : x - m + c = sign_of f64 (2 ^ 63 <=? x) + e * 2 ^ 52 + c) by (unfold sign_of; change (mw f64 + ew f64) with 63; lia).
    rewrite <- EY in Py, Ey, Ry, Sy. set (y := x - m + c) in *. clearbody y.
    set (q := (2 ^ 52 + m) / 2 ^ t).
    assert (P52 : 2 ^ 52 = 2 ^ (52 - t) * 2 ^ t) by (rewrite <- Z.pow_add_r by lia; f_equal; lia).
    assert (Q1 : q * 2 ^ t = 2 ^ 52 + c).
    { unfold q. rewrite P52 at 1. rewrite (Z.add_comm _ m), Z.div_add by lia. unfold c. rewrite P52. ring. }
    assert (QB : q * 2 ^ t <= 2 ^ 52 + m < (q + 1) * 2 ^ t) by (rewrite Z.mul_add_distr_r, Q1; unfold c; lia).
    assert (P74 : 2 ^ 1074 = 2 ^ t * 2 ^ (e - 1)) by (rewrite <- Z.pow_add_r by (unfold t; lia); f_equal; unfold t; lia).
    pose proof (pow2_pos (e - 1) ltac:(lia)) as PE.
    assert (MY : magnitude f64 y = q * 2 ^ 1074).
    { unfold magnitude. rewrite Ey, Ry. change (mw f64) with 52. replace (e =? 0) with false by (symmetry; apply Z.eqb_neq; lia). rewrite <- Q1, P74. ring. }
    assert (MX : magnitude f64 x = (2 ^ 52 + m) * 2 ^ (e - 1)).
    { unfold magnitude. fold e. fold m. change (mw f64) with 52. replace (e =? 0) with false by (symmetry; apply Z.eqb_neq; lia). reflexivity. }
    assert (FL : floor_of (magnitude f64 x) (2 ^ 1074) q).
    { unfold floor_of. rewrite MX, P74, !Z.mul_assoc. split; [apply Z.mul_le_mono_nonneg_r; lia|apply Z.mul_lt_mono_pos_r; lia]. }
    assert (Fy : finite f64 y) by (unfold finite; rewrite Ey; change (2 ^ ew f64 - 1) with 2047; lia).
    assert (M0 : 0 < magnitude f64 x) by (rewrite MX; nia).
    exists y. rewrite EU. unfold is_integer. change (unit1 f64) with (2 ^ 1074). unfold units, negative. change (width f64 - 1) with 63. rewrite Sy.
    destruct (Z.leb_spec (2 ^ 63) x) as [S|S].
    + exists (- q). split; [reflexivity|]. split; [split; [exact Py|split; [exact Fy|lia]]|]. split.
      * apply trunc_sym. split; [intros _; exact FL|lia].
      * intros _. apply Z.leb_le in Sy. lia.
    + exists q. split; [reflexivity|]. split; [split; [exact Py|split; [exact Fy|lia]]|]. split.
      * split; [intros _; exact FL|lia].
      * intros _. apply Z.leb_gt in Sy. lia.
Qed.

Lemma trunc_xe_special keep x : pattern f64 x -> infinite f64 x \/ not_a_number f64 x -> trunc_double_xe keep x = Some x.
Proof.
  intros Px H. assert (X0 : 0 <= x) by apply Px. unfold trunc_double_xe. rewrite exp64 by auto.
  assert (E : exponent f64 x = 2047) by (destruct H as [[H _]|[H _]]; exact H). rewrite E. reflexivity.
Qed.

(** From 2^53 on the amount of the shift is negative. *)
Lemma trunc_xe_poison keep x : pattern f64 x -> 1076 <= exponent f64 x < 2047 -> trunc_double_xe keep x = None.
Proof.
  intros Px H. assert (X0 : 0 <= x) by apply Px. unfold trunc_double_xe. rewrite exp64 by auto. set (e := exponent f64 x) in *.
  replace (e =? 2047) with false by (symmetry; apply Z.eqb_neq; lia). replace (e - 1023 <=? -1) with false by (symmetry; apply Z.leb_gt; lia).
  unfold lshr64. replace (0 <=? 52 - (e - 1023)) with false by (symmetry; apply Z.leb_gt; lia). reflexivity.
Qed.
