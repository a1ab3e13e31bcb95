(** float_to_half returns the nearest half. *)
From Coq Require Import ZArith List Bool Lia SpecFloat.
From Verif Require Import Bits FpModel FpProofs HalfModel HalfSpec HalfProofs.
Import ListNotations.
Local Open Scope Z_scope.

Lemma V_lt y y' : 0 <= y < y' -> V y < V y'.
Proof.
  intros H. set (h := y / 2 ^ 13). set (h' := y' / 2 ^ 13).
  assert (Ey : y = h * 2 ^ 13 + y mod 2 ^ 13) by (unfold h; lia).
  assert (Ey' : y' = h' * 2 ^ 13 + y' mod 2 ^ 13) by (unfold h'; lia).
  assert (0 <= h) by (unfold h; lia). assert (h <= h') by (unfold h, h'; lia).
  destruct (V_cell h) as (s & Ps & L); [lia|]. destruct (V_cell h') as (s' & Ps' & L'); [lia|].
  rewrite Ey, Ey'. rewrite L, L' by lia.
  destruct (Z.eq_dec h h') as [E|N].
  - rewrite <- E in *. assert (s' = s) by (specialize (L 1 ltac:(lia)); specialize (L' 1 ltac:(lia)); lia). subst s'.
    assert (y mod 2 ^ 13 < y' mod 2 ^ 13) by lia. nia.
  - pose proof (V_mono (h + 1) h' ltac:(lia)) as Mo.
    replace ((h + 1) * 2 ^ 13) with (h * 2 ^ 13 + 2 ^ 13) in Mo by ring. rewrite L in Mo by lia.
    assert (y mod 2 ^ 13 * s < 2 ^ 13 * s) by (apply Z.mul_lt_mono_pos_r; lia).
    assert (0 <= y' mod 2 ^ 13 * s') by (apply Z.mul_nonneg_nonneg; lia). lia.
Qed.

Lemma V_le y y' : 0 <= y <= y' -> V y <= V y'.
Proof. intros H. destruct (Z.eq_dec y y') as [->|N]; [lia|]. pose proof (V_lt y y'). lia. Qed.

(** Scale of the half with pattern [h] (extended past the largest one) *)
Definition G (h : Z) : Z := V (h * 2 ^ 13) * 2 ^ 112.

Lemma G_mag16 h : 0 <= h < 31744 -> G h = mag16 h * 2 ^ 125.
Proof. intros H. unfold G. rewrite V_mag16 by lia. change (2 ^ 125) with (2 ^ 13 * 2 ^ 112). ring. Qed.

Lemma G_mono h h' : 0 <= h <= h' -> G h <= G h'.
Proof. intros H. unfold G. apply Z.mul_le_mono_nonneg_r; [lia|]. now apply V_mono. Qed.

Lemma G_lt h h' : 0 <= h < h' -> G h < G h'.
Proof. intros H. unfold G. apply Z.mul_lt_mono_pos_r; [lia|]. now apply V_mono_lt. Qed.

Definition rounds_to (v q : Z) : Prop :=
  0 <= q /\ (q = 0 \/ G (q - 1) + G q <= 2 * v) /\ 2 * v < G q + G (q + 1).

Lemma G_0 : G 0 = 0.
Proof. reflexivity. Qed.

Lemma rounds_nearest v q : 0 <= v -> rounds_to v q ->
  forall h', 0 <= h' -> Z.abs (G q - v) <= Z.abs (G h' - v) /\ (Z.abs (G q - v) = Z.abs (G h' - v) -> G h' <= G q).
Proof.
  intros Hv (Hq & A & B) h' Hh. destruct (Z.lt_trichotomy h' q) as [L|[->|L]].
  - pose proof (G_mono h' (q - 1) ltac:(lia)). pose proof (G_lt (q - 1) q ltac:(lia)). destruct A as [A|A]; lia.
  - lia.
  - pose proof (G_mono (q + 1) h' ltac:(lia)). pose proof (G_lt q (q + 1) ltac:(lia)).
    destruct A as [->|A].
    + rewrite G_0 in *. lia.
    + lia.
Qed.

(* the pattern of a single, rebased to the exponent range of halves with 13 more bits *)
Lemma rounds_cell y : 0 <= y -> rounds_to (V y * 2 ^ 112) ((y + 4096) / 2 ^ 13).
Proof.
  intros Hy. set (h := y / 2 ^ 13). set (d := y mod 2 ^ 13).
  assert (Ey : y = h * 2 ^ 13 + d) by (unfold h, d; lia).
  assert (0 <= h) by (unfold h; lia). assert (0 <= d < 2 ^ 13) by (unfold d; lia).
  destruct (V_cell h) as (s & Ps & L); [lia|].
  assert (T : V ((h + 1) * 2 ^ 13) = V (h * 2 ^ 13) + 2 ^ 13 * s).
  { replace ((h + 1) * 2 ^ 13) with (h * 2 ^ 13 + 2 ^ 13) by ring. apply L. lia. }
  rewrite Ey, L by lia. unfold rounds_to, G.
  destruct (Z.lt_ge_cases d 4096) as [D|D].
  - replace ((h * 2 ^ 13 + d + 4096) / 2 ^ 13) with h by lia. split; [lia|]. split.
    + destruct (Z.eq_dec h 0); [now left|right]. pose proof (V_mono (h - 1) h ltac:(lia)).
      assert (0 <= d * s) by (apply Z.mul_nonneg_nonneg; lia). lia.
    + rewrite T. assert (d * s < 4096 * s) by (apply Z.mul_lt_mono_pos_r; lia). lia.
  - replace ((h * 2 ^ 13 + d + 4096) / 2 ^ 13) with (h + 1) by lia. split; [lia|]. split.
    + right. replace (h + 1 - 1) with h by lia. rewrite T. assert (4096 * s <= d * s) by (apply Z.mul_le_mono_nonneg_r; lia). lia.
    + pose proof (V_step (h + 1) ltac:(lia)) as St. rewrite T in *.
      assert (d * s < 2 ^ 13 * s) by (apply Z.mul_lt_mono_pos_r; lia). lia.
Qed.

Lemma rounds_small v q : 0 <= q <= 1024 -> q * 2 ^ 125 <= v + 2 ^ 124 < (q + 1) * 2 ^ 125 -> rounds_to v q.
Proof.
  intros Hq H. unfold rounds_to, G. rewrite (V_small (q * 2 ^ 13)), (V_small ((q + 1) * 2 ^ 13)) by lia.
  split; [lia|]. split.
  - destruct (Z.eq_dec q 0); [now left|right]. rewrite V_small by lia. lia.
  - lia.
Qed.

Lemma mag32_pos x : 0 <= x < 255 * 2 ^ 23 ->
  mag32 x = if x / 2 ^ 23 =? 0 then x mod 2 ^ 23 else (x mod 2 ^ 23 + 2 ^ 23) * 2 ^ (x / 2 ^ 23 - 1).
Proof.
  intros H. unfold mag32, exp32, man32. replace ((x / 2 ^ 23) mod 2 ^ 8) with (x / 2 ^ 23) by (symmetry; apply Z.mod_small; lia).
  reflexivity.
Qed.

(* the unclamped magnitude computed by float_to_half *)
Definition raw (x : Z) : Z := (fmul32 (x - x mod 2 ^ 12) (15 * 2 ^ 23) + 4096) / 2 ^ 13.

Lemma raw_normal x : 113 * 2 ^ 23 <= x < 255 * 2 ^ 23 ->
  fmul32 (x - x mod 2 ^ 12) (15 * 2 ^ 23) = x - 112 * 2 ^ 23 - x mod 2 ^ 12 /\
  raw x = (x - 112 * 2 ^ 23 + 4096) / 2 ^ 13 /\ mag32 x = V (x - 112 * 2 ^ 23) * 2 ^ 112.
Proof.
  intros H. set (e := x / 2 ^ 23). set (m := x mod 2 ^ 23).
  assert (Ex : x = e * 2 ^ 23 + m) by (unfold e, m; lia). assert (113 <= e <= 254) by (unfold e; lia).
  assert (0 <= m < 2 ^ 23) by (unfold m; lia).
  assert (F : fmul32 (x - x mod 2 ^ 12) (15 * 2 ^ 23) = x - 112 * 2 ^ 23 - x mod 2 ^ 12).
  { replace (x - x mod 2 ^ 12) with (e * 2 ^ 23 + (m - m mod 2 ^ 12)) by lia. rewrite mul_magic_normal by lia. lia. }
  split; [exact F|]. split.
  - unfold raw. rewrite F. lia.
  - rewrite mag32_pos by lia. unfold V. fold e m.
    assert (E1 : (x - 112 * 2 ^ 23) / 2 ^ 23 = e - 112) by lia. assert (E2 : (x - 112 * 2 ^ 23) mod 2 ^ 23 = m) by lia.
    rewrite E1, E2. destruct (Z.eqb_spec e 0); [lia|]. destruct (Z.eqb_spec (e - 112) 0); [lia|].
    replace (e - 1) with (e - 112 - 1 + 112) by lia. rewrite Z.pow_add_r by lia. ring.
Qed.

Lemma raw_small x : 0 <= x < 113 * 2 ^ 23 -> 0 <= fmul32 (x - x mod 2 ^ 12) (15 * 2 ^ 23) < 2 ^ 23 /\
  0 <= raw x <= 1024 /\ raw x * 2 ^ 125 <= mag32 x + 2 ^ 124 < (raw x + 1) * 2 ^ 125.
Proof.
  intros H. set (e := x / 2 ^ 23). set (m := x mod 2 ^ 23).
  assert (Ex : x = e * 2 ^ 23 + m) by (unfold e, m; lia). assert (0 <= e <= 112) by (unfold e; lia).
  assert (0 <= m < 2 ^ 23) by (unfold m; lia).
  rewrite mag32_pos by lia. fold e m.
  destruct (Z.lt_ge_cases e 101) as [L|L].
  - pose proof (mul_magic_tiny (x - x mod 2 ^ 12) ltac:(lia)) as T.
    split; [lia|]. unfold raw. assert (R : (fmul32 (x - x mod 2 ^ 12) (15 * 2 ^ 23) + 4096) / 2 ^ 13 = 0).
    { apply Z.div_small. lia. } rewrite R. split; [lia|].
    destruct (Z.eqb_spec e 0); [lia|].
    assert (2 ^ (e - 1) <= 2 ^ 99) by (apply Z.pow_le_mono_r; lia). pose proof (pow2_pos (e - 1)).
    assert (0 <= (m + 2 ^ 23) * 2 ^ (e - 1) <= 2 ^ 24 * 2 ^ 99) by nia. lia.
  - set (m' := m - m mod 2 ^ 12). set (r := m mod 2 ^ 12). assert (0 <= r < 2 ^ 12) by (unfold r; lia).
    assert (Em : m = m' + r) by (unfold m', r; lia).
    destruct (mul_magic_denormal e m' ltac:(lia) ltac:(unfold m'; lia) ltac:(unfold m'; lia)) as [F D].
    replace (x - x mod 2 ^ 12) with (e * 2 ^ 23 + m') by (unfold m'; lia).
    set (k := 113 - e) in *. assert (Hk : 1 <= k <= 12) by lia. pose proof (pow2_pos k) as Pk.
    assert (2 ^ 1 <= 2 ^ k) by (apply Z.pow_le_mono_r; lia).
    set (t := (m' + 2 ^ 23) / 2 ^ k) in *.
    assert (Et : m' + 2 ^ 23 = t * 2 ^ k) by (unfold t; pose proof (Z.div_mod (m' + 2 ^ 23) (2 ^ k)); lia).
    assert (0 <= t) by (unfold t; apply Z.div_pos; unfold m'; lia).
    assert (t < 2 ^ 23) by (assert (m' < 2 ^ 23) by (unfold m'; lia); nia).
    rewrite F. split; [lia|]. unfold raw. replace (x - x mod 2 ^ 12) with (e * 2 ^ 23 + m') by (unfold m'; lia). rewrite F.
    set (q := (t + 4096) / 2 ^ 13). split; [unfold q; lia|].
    destruct (Z.eqb_spec e 0); [lia|].
    replace (e - 1) with (112 - k) by lia.
    replace (m + 2 ^ 23) with (t * 2 ^ k + r) by lia.
    set (c := 2 ^ (112 - k)). assert (Ec : 2 ^ 112 = 2 ^ k * c) by (unfold c; rewrite <- Z.pow_add_r by lia; f_equal; lia).
    assert (0 < c) by (apply pow2_pos; lia).
    change (2 ^ 125) with (2 ^ 13 * 2 ^ 112). change (2 ^ 124) with (2 ^ 12 * 2 ^ 112). rewrite Ec.
    assert (Q1 : 2 ^ 13 * q <= t + 2 ^ 12 < 2 ^ 13 * q + 2 ^ 13) by (unfold q; lia).
    assert (P12 : 2 ^ 12 = 2 ^ k * 2 ^ (12 - k)) by (rewrite <- Z.pow_add_r by lia; f_equal; lia).
    assert (M : (m' + 2 ^ 23) mod 2 ^ 12 = 0) by (unfold m'; lia).
    assert (U : t * 2 ^ k + r + 2 ^ 12 * 2 ^ k < (2 ^ 13 * q + 2 ^ 13) * 2 ^ k).
    { assert (A : t * 2 ^ k + 2 ^ 12 * 2 ^ k < (2 ^ 13 * q + 2 ^ 13) * 2 ^ k).
      { rewrite <- Z.mul_add_distr_r. apply Z.mul_lt_mono_pos_r; lia. }
      rewrite <- Et in *.
      assert (B : exists a, m' + 2 ^ 23 = 2 ^ 12 * a) by (exists ((m' + 2 ^ 23) / 2 ^ 12); lia). destruct B as [a B].
      rewrite B in *.
      assert (2 ^ 12 * a + 2 ^ 12 * 2 ^ k + 2 ^ 12 <= (2 ^ 13 * q + 2 ^ 13) * 2 ^ k); [|lia].
      replace ((2 ^ 13 * q + 2 ^ 13) * 2 ^ k) with (2 ^ 12 * (2 * (q + 1) * 2 ^ k)) in * by ring.
      assert (a + 2 ^ k < 2 * (q + 1) * 2 ^ k) by nia. nia. }
    split.
    + replace (q * (2 ^ 13 * (2 ^ k * c))) with ((2 ^ 13 * q) * 2 ^ k * c) by ring.
      replace ((t * 2 ^ k + r) * c + 2 ^ 12 * (2 ^ k * c)) with (((t + 2 ^ 12) * 2 ^ k + r) * c) by ring.
      apply Z.mul_le_mono_nonneg_r; [lia|]. assert (2 ^ 13 * q * 2 ^ k <= (t + 2 ^ 12) * 2 ^ k) by (apply Z.mul_le_mono_nonneg_r; lia). lia.
    + replace ((q + 1) * (2 ^ 13 * (2 ^ k * c))) with ((2 ^ 13 * q + 2 ^ 13) * 2 ^ k * c) by ring.
      replace ((t * 2 ^ k + r) * c + 2 ^ 12 * (2 ^ k * c)) with ((t * 2 ^ k + r + 2 ^ 12 * 2 ^ k) * c) by ring.
      apply Z.mul_lt_mono_pos_r; lia.
Qed.

Lemma raw_rounds x : 0 <= x < 255 * 2 ^ 23 -> rounds_to (mag32 x) (raw x) /\ 0 <= mag32 x.
Proof.
  intros H. destruct (Z.lt_ge_cases x (113 * 2 ^ 23)) as [L|L].
  - destruct (raw_small x ltac:(lia)) as (_ & A & B). split; [now apply rounds_small|].
    rewrite mag32_pos by lia. destruct (Z.eqb_spec (x / 2 ^ 23) 0); [lia|].
    apply Z.mul_nonneg_nonneg; [lia|]. apply Z.pow_nonneg. lia.
  - destruct (raw_normal x ltac:(lia)) as (_ & A & B). rewrite A, B. split; [apply rounds_cell; lia|].
    apply Z.mul_nonneg_nonneg; [|lia]. pose proof (V_le 0 (x - 112 * 2 ^ 23) ltac:(lia)) as Z0. change (V 0) with 0 in Z0. exact Z0.
Qed.

Lemma raw_overflow x : 0 <= x < 255 * 2 ^ 23 -> (31744 <= raw x <-> 65520 * 2 ^ 149 <= mag32 x).
Proof.
  intros H. destruct (Z.lt_ge_cases x (113 * 2 ^ 23)) as [L|L].
  - destruct (raw_small x ltac:(lia)) as (_ & A & B). split; intros; [lia|].
    assert ((raw x + 1) * 2 ^ 125 <= 1025 * 2 ^ 125) by lia. lia.
  - destruct (raw_normal x ltac:(lia)) as (_ & A & B). rewrite A, B.
    assert (T : V (31744 * 2 ^ 13 - 4096) * 2 ^ 112 = 65520 * 2 ^ 149) by reflexivity. rewrite <- T.
    split; intros C.
    + apply Z.mul_le_mono_nonneg_r; [lia|]. apply V_le. lia.
    + destruct (Z.lt_ge_cases (x - 112 * 2 ^ 23) (31744 * 2 ^ 13 - 4096)) as [D|D]; [|lia].
      pose proof (V_lt (x - 112 * 2 ^ 23) (31744 * 2 ^ 13 - 4096) ltac:(lia)). lia.
Qed.
