(** half_to_float, round trips, random numbers and sRGB. *)
From Coq Require Import ZArith List Bool Lia SpecFloat.
From Verif Require Import Bits FpModel FpProofs HalfModel HalfSpec HalfProofs HalfProofs2 HalfProofs3.
Import ListNotations.
Local Open Scope Z_scope.

(** ** Exact subtraction of singles with the same exponent *)

Lemma fsub_same e m : 30 <= e <= 254 -> 0 <= m < 2 ^ 23 ->
  let r := fsub32 (e * 2 ^ 23 + m) (e * 2 ^ 23) in
  0 <= r < 255 * 2 ^ 23 /\ mag32 r = m * 2 ^ (e - 1).
Proof.
  intros He Hm. cbv zeta. unfold fsub32. rewrite decode_norm by lia.
  replace (e * 2 ^ 23) with (e * 2 ^ 23 + 0) by lia. rewrite decode_norm by lia.
  cbn [SFsub]. rewrite Z.min_id. unfold shl_align. rewrite Z.sub_diag. cbn [fst cond_Zopp].
  rewrite !Z2Pos.id by lia.
  replace (m + 2 ^ 23 - (0 + 2 ^ 23)) with m by lia.
  destruct (Z.eq_dec m 0) as [->|N].
  - cbn [binary_normalize]. cbn. split; [lia|reflexivity].
  - unfold binary_normalize. destruct m as [|p|p] eqn:Em; [lia| |lia]. rewrite <- Em in *.
    set (d := Z.log2 m). assert (Ld : 2 ^ d <= m < 2 ^ (d + 1)) by (apply Z.log2_spec; lia).
    assert (Dr : 0 <= d < 23) by (split; [apply Z.log2_nonneg|apply Z.log2_lt_pow2; lia]).
    set (k := 23 - d).
    assert (B : 2 ^ 23 <= m * 2 ^ k < 2 ^ 24).
    { assert (E1 : 2 ^ 23 = 2 ^ d * 2 ^ k) by (rewrite <- Z.pow_add_r by lia; f_equal; lia).
      assert (E2 : 2 ^ 24 = 2 ^ (d + 1) * 2 ^ k) by (rewrite <- Z.pow_add_r by lia; f_equal; lia).
      pose proof (pow2_pos k). nia. }
    rewrite (round_exact 24 128 false p (e - 150) (m * 2 ^ k) (e - 150 - k)).
    + rewrite encode_norm by lia. cbn [signbit32].
      replace (0 + (e - 150 - k + 150) * 2 ^ 23 + (m * 2 ^ k - 2 ^ 23)) with ((e - k) * 2 ^ 23 + (m * 2 ^ k - 2 ^ 23)) by lia.
      set (y := (e - k) * 2 ^ 23 + (m * 2 ^ k - 2 ^ 23)). assert (Hy : 0 <= y < 255 * 2 ^ 23) by (unfold y; lia).
      split; [exact Hy|]. rewrite mag32_pos by lia.
      replace (y / 2 ^ 23) with (e - k) by (unfold y; lia). replace (y mod 2 ^ 23) with (m * 2 ^ k - 2 ^ 23) by (unfold y; lia).
      destruct (Z.eqb_spec (e - k) 0); [lia|].
      replace (m * 2 ^ k - 2 ^ 23 + 2 ^ 23) with (m * 2 ^ k) by lia. rewrite <- Z.mul_assoc, <- Z.pow_add_r by lia. do 2 f_equal. lia.
    + lia.
    + apply fexp32_norm; lia.
    + lia.
    + right. split; [lia|]. rewrite <- Em. do 2 f_equal. lia.
Qed.

(** ** half_to_float *)

Lemma land_exp o : 0 <= o < 2 ^ 28 -> Z.land (31744 * 2 ^ 13) o = o / 2 ^ 23 * 2 ^ 23.
Proof.
  intros H. change (31744 * 2 ^ 13) with (Z.shiftl (Z.ones 5) 23).
  rewrite <- Z.shiftl_mul_pow2, <- Z.shiftr_div_pow2 by lia.
  apply Z.bits_inj'. intros i Hi. rewrite Z.land_spec.
  destruct (Z.lt_ge_cases i 23).
  - rewrite !Z.shiftl_spec_low by lia. reflexivity.
  - rewrite !Z.shiftl_spec, Z.shiftr_spec by lia. replace (i - 23 + 23) with i by lia.
    destruct (Z.lt_ge_cases i 28).
    + rewrite Z.ones_spec_low by lia. reflexivity.
    + rewrite (in_u_high 28 o) by (try exact H; lia). apply andb_false_r.
Qed.

Definition h2f_mag (q : Z) : Z :=
  if q / 2 ^ 10 =? 31 then q * 2 ^ 13 + 224 * 2 ^ 23
  else if q / 2 ^ 10 =? 0 then fsub32 (113 * 2 ^ 23 + q * 2 ^ 13) (113 * 2 ^ 23)
  else q * 2 ^ 13 + 112 * 2 ^ 23.

Definition h2f (h : Z) : Z := (if neg16 h then 2 ^ 31 else 0) + h2f_mag (h mod 2 ^ 15).

Lemma h2f_mag_range q : 0 <= q < 2 ^ 15 -> 0 <= h2f_mag q < 2 ^ 31.
Proof.
  intros H. unfold h2f_mag. destruct (Z.eqb_spec (q / 2 ^ 10) 31); [lia|].
  destruct (Z.eqb_spec (q / 2 ^ 10) 0); [|lia].
  destruct (fsub_same 113 (q * 2 ^ 13) ltac:(lia) ltac:(lia)) as [A _]. cbv zeta in A. lia.
Qed.

Lemma sign_half h : is16 h -> wrapu 32 (Z.land h 32768 * 2 ^ 16) = if neg16 h then 2 ^ 31 else 0.
Proof.
  intros H. change 32768 with (2 ^ 15). rewrite land_pow2 by lia.
  rewrite (testbit_top 15) by (cbn; unfold is16 in H; lia). unfold neg16. destruct (2 ^ 15 <=? h); reflexivity.
Qed.

Lemma h2f_uniform h : is16 h -> half_to_float_uniform h = h2f h.
Proof.
  intros H. unfold half_to_float_uniform. cbv zeta. rewrite sign_half by auto.
  change 32767 with (2 ^ 15 - 1). rewrite land_ones_low by lia.
  unfold h2f. set (q := h mod 2 ^ 15). assert (Q : 0 <= q < 2 ^ 15) by (unfold q; lia).
  rewrite land_exp by lia. pose proof (h2f_mag_range q Q) as R.
  set (o := wrapu 32 (q * 2 ^ 13 + (127 - 15) * 2 ^ 23)).
  assert (Eo : o = q * 2 ^ 13 + 112 * 2 ^ 23) by (unfold o, wrapu; rewrite Z.mod_small; lia).
  match goal with |- Z.lor ?a _ = _ => assert (E : a = h2f_mag q) end.
  { unfold h2f_mag. destruct (Z.eqb_spec (q * 2 ^ 13 / 2 ^ 23 * 2 ^ 23) (31744 * 2 ^ 13)) as [A|A].
    - destruct (Z.eqb_spec (q / 2 ^ 10) 31); [|lia]. rewrite Eo. unfold wrapu. rewrite Z.mod_small; lia.
    - destruct (Z.eqb_spec (q / 2 ^ 10) 31); [lia|].
      destruct (Z.eqb_spec (q * 2 ^ 13 / 2 ^ 23 * 2 ^ 23) 0) as [B|B]; destruct (Z.eqb_spec (q / 2 ^ 10) 0); try lia.
      f_equal. rewrite Eo. unfold wrapu. rewrite Z.mod_small; lia. }
  rewrite E. rewrite (lor_add _ _ 31) by (try lia; now destruct (neg16 h)). lia.
Qed.

Lemma h2f_varying h : half_to_float_varying h = half_to_float_uniform h.
Proof.
  unfold half_to_float_varying, half_to_float_uniform. cbv zeta.
  destruct (_ =? 31744 * 2 ^ 13); [reflexivity|]. destruct (_ =? 0); reflexivity.
Qed.

Lemma h2f_mag_value q : 0 <= q < 31744 -> h2f_mag q < 255 * 2 ^ 23 /\ mag32 (h2f_mag q) = mag16 q * 2 ^ 125.
Proof.
  intros H. rewrite <- G_mag16 by lia. unfold h2f_mag, G.
  destruct (Z.eqb_spec (q / 2 ^ 10) 31); [lia|]. destruct (Z.eqb_spec (q / 2 ^ 10) 0) as [Z0|N].
  - destruct (fsub_same 113 (q * 2 ^ 13) ltac:(lia) ltac:(lia)) as [A B]. cbv zeta in *. split; [lia|].
    rewrite B, V_small by lia. reflexivity.
  - split; [lia|]. set (x := q * 2 ^ 13 + 112 * 2 ^ 23). destruct (raw_normal x ltac:(unfold x; lia)) as (_ & _ & ->).
    do 2 f_equal. unfold x. lia.
Qed.

Lemma sgn32 (b : bool) x : 0 <= x < 2 ^ 31 ->
  let f := (if b then 2 ^ 31 else 0) + x in
  is32 f /\ neg32 f = b /\ f mod 2 ^ 31 = x /\ exp32 f = x / 2 ^ 23 /\ man32 f = x mod 2 ^ 23 /\ mag32 f = mag32 x.
Proof.
  intros H. cbv zeta. assert (A : is32 ((if b then 2 ^ 31 else 0) + x)) by (unfold is32; destruct b; lia).
  assert (M : ((if b then 2 ^ 31 else 0) + x) mod 2 ^ 31 = x) by (destruct b; lia).
  split; [exact A|]. split.
  { unfold neg32. destruct b; destruct (Z.leb_spec (2 ^ 31) x); try lia; apply Z.leb_le; lia. }
  split; [exact M|].
  rewrite (proj1 (exp32_mod _ A)), man32_mod, mag32_mod by exact A. rewrite M. auto.
Qed.

Lemma half_sgn h : is16 h -> let q := h mod 2 ^ 15 in
  0 <= q < 2 ^ 15 /\ exp16 h = q / 2 ^ 10 /\ man16 h = q mod 2 ^ 10 /\ mag16 h = mag16 q /\ h = (if neg16 h then 2 ^ 15 else 0) + q.
Proof.
  intros H. cbv zeta. unfold is16 in H. set (q := h mod 2 ^ 15). assert (Q : 0 <= q < 2 ^ 15) by (unfold q; lia).
  assert (E : h = (if neg16 h then 2 ^ 15 else 0) + q) by (unfold neg16, q; destruct (Z.leb_spec (2 ^ 15) h); lia).
  destruct (sgn16 (neg16 h) q Q) as (A & B & C & D & F). cbv zeta in *. rewrite <- E in *. auto.
Qed.

Lemma h2f_exact h : is16 h -> finite16 h ->
  is32 (h2f h) /\ finite32 (h2f h) /\ neg32 (h2f h) = neg16 h /\ val32 (h2f h) = val16 h * 2 ^ 125.
Proof.
  intros H F. destruct (half_sgn h H) as (Q & E & M & G0 & D). cbv zeta in *. unfold finite16 in F. rewrite E in F.
  set (q := h mod 2 ^ 15) in *. assert (Q2 : q < 31744) by lia.
  pose proof (h2f_mag_range q Q) as R. destruct (h2f_mag_value q ltac:(lia)) as [L V0].
  unfold h2f. fold q. destruct (sgn32 (neg16 h) (h2f_mag q) ltac:(lia)) as (A1 & A2 & A3 & A4 & A5 & A6). cbv zeta in *.
  split; [exact A1|]. split; [unfold finite32; rewrite A4; lia|]. split; [exact A2|].
  unfold val32, val16. rewrite A2, A6, V0, G0. destruct (neg16 h); ring.
Qed.

Lemma h2f_inf_nan h : is16 h -> exp16 h = 31 ->
  is32 (h2f h) /\ neg32 (h2f h) = neg16 h /\ exp32 (h2f h) = 255 /\ man32 (h2f h) = man16 h * 2 ^ 13.
Proof.
  intros H F. destruct (half_sgn h H) as (Q & E & M & G0 & D). cbv zeta in *. rewrite E in F.
  set (q := h mod 2 ^ 15) in *. unfold h2f. fold q.
  pose proof (h2f_mag_range q Q) as R. destruct (sgn32 (neg16 h) (h2f_mag q) ltac:(lia)) as (A1 & A2 & A3 & A4 & A5 & A6). cbv zeta in *.
  rewrite A4, A5, M. assert (HM : h2f_mag q = q * 2 ^ 13 + 224 * 2 ^ 23). { unfold h2f_mag. rewrite F. reflexivity. }
  rewrite HM in *. split; [exact A1|]. split; [exact A2|]. split; lia.
Qed.

(** A half converted to single and back is itself *)
Lemma roundtrip h : is16 h -> ~ nan16 h -> f2h (h2f h) = h.
Proof.
  intros H N. destruct (half_sgn h H) as (Q & E & M & G0 & D). cbv zeta in *.
  destruct (Z.eq_dec (exp16 h) 31) as [I|F].
  - assert (man16 h = 0) by (destruct (Z.eq_dec (man16 h) 0); auto; exfalso; apply N; split; auto).
    unfold h2f. set (q := h mod 2 ^ 15) in *. assert (Hq : q = 31744) by lia. rewrite Hq in *.
    destruct (sgn32 (neg16 h) (h2f_mag 31744) (h2f_mag_range 31744 ltac:(lia))) as (A1 & A2 & A3 & A4 & A5 & A6). cbv zeta in *.
    unfold f2h. rewrite A2, A3. cbv zeta. change (h2f_mag 31744) with (255 * 2 ^ 23). cbn [Z.ltb]. rewrite D at 2. reflexivity.
  - destruct (h2f_exact h H F) as (A & B & C & V0).
    assert (Hm : mag16 h < 65520 * 2 ^ 24).
    { rewrite G0. rewrite E in F. set (q := h mod 2 ^ 15) in *.
      pose proof (mag16_mono q 31743 ltac:(lia) ltac:(lia) ltac:(lia)) as L. change (mag16 31743) with (65504 * 2 ^ 24) in L. lia. }
    destruct (f2h_nearest (h2f h) A B) as [(N1 & N2 & N3) N4].
    { rewrite V0. unfold val16. pose proof (mag16_nonneg h). destruct (neg16 h); lia. }
    destruct (N3 h H F) as [Dm _]. unfold dist in Dm. rewrite V0 in Dm. rewrite Z.sub_diag in Dm.
    assert (Ev : val16 (f2h (h2f h)) = val16 h) by lia.
    rewrite C in N4. unfold val16 in Ev. rewrite N4 in Ev.
    assert (Em : mag16 (f2h (h2f h)) = mag16 h) by (destruct (neg16 h); lia). clear Ev.
    destruct (half_sgn _ N1) as (Q' & E' & M' & G' & D'). cbv zeta in *. rewrite N4 in D'.
    transitivity ((if neg16 h then 2 ^ 15 else 0) + h mod 2 ^ 15); [|symmetry; exact D].
    etransitivity; [exact D'|]. f_equal. rewrite G0, G' in Em. unfold finite16 in N2. rewrite E' in N2. rewrite E in F.
    set (q := h mod 2 ^ 15) in *. set (q' := f2h (h2f h) mod 2 ^ 15) in *.
    destruct (Z.lt_trichotomy q' q) as [L|[L|L]]; [|exact L|].
    + pose proof (G_lt q' q ltac:(lia)) as X. rewrite !G_mag16 in X by lia. lia.
    + pose proof (G_lt q q' ltac:(lia)) as X. rewrite !G_mag16 in X by lia. lia.
Qed.

(** ** The fast versions *)

Lemma h2f_fast h : is16 h -> 1 <= exp16 h <= 30 -> half_to_float_fast h = h2f h.
Proof.
  intros H F. destruct (half_sgn h H) as (Q & E & M & G0 & D). cbv zeta in *. rewrite E in F.
  unfold half_to_float_fast. cbv zeta. rewrite sign_half by auto. change 32767 with (2 ^ 15 - 1). rewrite land_ones_low by lia.
  unfold h2f, h2f_mag. set (q := h mod 2 ^ 15) in *.
  destruct (Z.eqb_spec (q / 2 ^ 10) 31); [lia|]. destruct (Z.eqb_spec (q / 2 ^ 10) 0); [lia|].
  unfold wrapu. rewrite (Z.mod_small (q * 2 ^ 13)) by lia. rewrite Z.mod_small by lia.
  rewrite Z.lor_comm, (lor_add _ _ 31) by (try lia; now destruct (neg16 h)). lia.
Qed.

Lemma f2h_fast f : is32 f -> 113 <= exp32 f <= 142 -> float_to_half_fast f = f2h f.
Proof.
  intros H F. rewrite (proj1 (exp32_mod f H)) in F. unfold float_to_half_fast. cbv zeta.
  rewrite (land_pow2 f 31) by lia. rewrite (testbit_top 31) by (cbn; unfold is32 in H; lia). fold (neg32 f).
  rewrite land_ones_low by lia.
  assert (X : Z.land f (255 * 2 ^ 23) = (f mod 2 ^ 31) / 2 ^ 23 * 2 ^ 23).
  { change (255 * 2 ^ 23) with (Z.shiftl (Z.ones 8) 23). rewrite <- Z.shiftl_mul_pow2, <- Z.shiftr_div_pow2 by lia.
    apply Z.bits_inj'. intros i Hi. rewrite Z.land_spec.
    destruct (Z.lt_ge_cases i 23).
    - rewrite !Z.shiftl_spec_low by lia. apply andb_false_r.
    - rewrite !Z.shiftl_spec, Z.shiftr_spec by lia. replace (i - 23 + 23) with i by lia.
      destruct (Z.lt_ge_cases i 31).
      + rewrite Z.ones_spec_low, Z.mod_pow2_bits_low by lia. apply andb_true_r.
      + rewrite Z.ones_spec_high, Z.mod_pow2_bits_high by lia. apply andb_false_r. }
  rewrite X. unfold f2h. cbv zeta. set (x := f mod 2 ^ 31) in *.
  assert (Hx : 0 <= x < 2 ^ 31) by (unfold x; lia).
  destruct (Z.ltb_spec x (255 * 2 ^ 23)); [|lia]. destruct (raw_normal x ltac:(lia)) as (_ & -> & _).
  replace (f mod 2 ^ 23) with (x mod 2 ^ 23) by (unfold x; lia).
  set (e := x / 2 ^ 23) in *. set (m := x mod 2 ^ 23).
  assert (Ex : x = e * 2 ^ 23 + m) by (unfold e, m; lia). assert (0 <= m < 2 ^ 23) by (unfold m; lia).
  replace (e * 2 ^ 23 / 2 ^ 23) with e by lia.
  assert (W : wrapu 32 ((e - 127 + 15) * 2 ^ 10) = (e - 127 + 15) * 2 ^ 10) by (unfold wrapu; rewrite Z.mod_small; lia). rewrite W.
  rewrite <- Z.lor_assoc. rewrite (Z.lor_comm ((e - 127 + 15) * 2 ^ 10)). rewrite (lor_add (m / 2 ^ 13) _ 10) by lia.
  rewrite Z.lor_comm, (lor_add _ _ 15) by (try lia; now destruct (neg32 f)).
  change 4096 with (2 ^ 12) at 1. rewrite land_pow2 by lia. rewrite Z.testbit_odd, Z.shiftr_div_pow2 by lia.
  replace (Z.min 31744 ((x - 112 * 2 ^ 23 + 4096) / 2 ^ 13)) with ((x - 112 * 2 ^ 23 + 4096) / 2 ^ 13) by lia.
  unfold wrapu.
  destruct (Z.odd (m / 2 ^ 12)) eqn:Od.
  - assert (Om : (m / 2 ^ 12) mod 2 = 1) by (rewrite Zmod_odd, Od; reflexivity).
    change (2 ^ 12 =? 0) with false. cbv iota.
    replace ((x - 112 * 2 ^ 23 + 4096) / 2 ^ 13) with ((e - 112) * 2 ^ 10 + m / 2 ^ 13 + 1) by lia.
    destruct (neg32 f); rewrite !Z.mod_small; try lia.
  - assert (Om : (m / 2 ^ 12) mod 2 = 0) by (rewrite Zmod_odd, Od; reflexivity).
    change (0 =? 0) with true. cbv iota.
    replace ((x - 112 * 2 ^ 23 + 4096) / 2 ^ 13) with ((e - 112) * 2 ^ 10 + m / 2 ^ 13) by lia.
    destruct (neg32 f); rewrite !Z.mod_small; try lia.
Qed.

(** ** frandom *)

Lemma frandom_value s : let '(s', r) := frandom s in let v := snd (random s) mod 2 ^ 23 in
  s' = fst (random s) /\ is32 r /\ neg32 r = false /\ finite32 r /\ val32 r = v * 2 ^ 126.
Proof.
  unfold frandom. destruct (random s) as [s' w]. cbn [fst snd]. rewrite land_ones_low by lia.
  set (v := w mod 2 ^ 23). assert (Hv : 0 <= v < 2 ^ 23) by (unfold v; lia).
  rewrite Z.lor_comm, (lor_add v _ 23) by (try lia; reflexivity). rewrite Z.add_comm.
  destruct (fsub_same 127 v ltac:(lia) ltac:(lia)) as [A B]. cbv zeta in *.
  set (r := fsub32 (127 * 2 ^ 23 + v) (127 * 2 ^ 23)) in *.
  destruct (sgn32 false r ltac:(lia)) as (A1 & A2 & A3 & A4 & A5 & A6). cbv zeta in *. rewrite Z.add_0_l in *.
  split; [reflexivity|]. split; [exact A1|]. split; [exact A2|]. split; [unfold finite32; rewrite A4; lia|].
  unfold val32. rewrite A2. exact B.
Qed.
