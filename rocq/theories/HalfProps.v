(** Property theorems: half/float conversions (C23, C46), sRGB (C28), random numbers (C29).
    A single is its 32-bit pattern, a half its 16-bit pattern.  [val32] counts units of 2^-149 and
    [val16] units of 2^-24 (HalfSpec.v), so [val16 h * 2^125 = val32 f] means equal numbers. *)
From Coq Require Import ZArith List Bool Lia.
From Verif Require Import Bits FpModel HalfModel HalfSpec HalfProofs3 HalfProofs4 HalfProofs5.
Import ListNotations.
Local Open Scope Z_scope.

(** The conversion functions of the standard library: the uniform version, and the varying version
    with either behaviour of [min] *)
Inductive a_float_to_half : (Z -> Z) -> Prop :=
| F2Huniform : a_float_to_half float_to_half_uniform
| F2Hvarying_num : a_float_to_half (float_to_half_varying fminnum32)
| F2Hvarying_ps : a_float_to_half (float_to_half_varying fminps32).

Inductive a_half_to_float : (Z -> Z) -> Prop :=
| H2Funiform : a_half_to_float half_to_float_uniform
| H2Fvarying : a_half_to_float half_to_float_varying.

Lemma a_f2h c f : a_float_to_half c -> is32 f -> c f = f2h f.
Proof.
  intros [| |] H; [now apply f2h_uniform|apply f2h_varying; auto using fminnum_is_min|apply f2h_varying; auto using fminps_is_min].
Qed.
Lemma a_h2f c h : a_half_to_float c -> is16 h -> c h = h2f h.
Proof. intros [|] H; [now apply h2f_uniform|]. rewrite h2f_varying. now apply h2f_uniform. Qed.

(** ** C23 *)

(* every finite half is converted exactly, with its sign *)
Theorem C23_half_to_float_exact :
  forall c h, a_half_to_float c -> is16 h -> finite16 h ->
  is32 (c h) /\ finite32 (c h) /\ neg32 (c h) = neg16 h /\ val32 (c h) = val16 h * 2 ^ 125.
Proof. intros c h A H F. rewrite (a_h2f c h A H). now apply h2f_exact. Qed.
Print Assumptions C23_half_to_float_exact.

(* infinities and NaNs *)
Theorem C23_half_to_float_special :
  forall c h, a_half_to_float c -> is16 h ->
  (inf16 h -> inf32 (c h) /\ neg32 (c h) = neg16 h) /\ (nan16 h -> nan32 (c h)).
Proof.
  intros c h A H. rewrite (a_h2f c h A H). split; intros [E M]; destruct (h2f_inf_nan h H E) as (_ & B & C & D).
  - split; [|exact B]. split; [exact C|]. rewrite D, M. reflexivity.
  - split; [exact C|]. rewrite D. lia.
Qed.
Print Assumptions C23_half_to_float_special.

(* float_to_half returns the nearest half (ties: the larger magnitude) and keeps the sign *)
Theorem C23_float_to_half_nearest :
  forall c f, a_float_to_half c -> is32 f -> finite32 f -> Z.abs (val32 f) < 65520 * 2 ^ 149 ->
  nearest_ties_away f (c f) /\ neg16 (c f) = neg32 f.
Proof. intros c f A H F L. rewrite (a_f2h c f A H). now apply f2h_nearest. Qed.
Print Assumptions C23_float_to_half_nearest.

(* values that round beyond the largest half (65504), and infinities, become infinities *)
Theorem C23_float_to_half_overflow :
  forall c f, a_float_to_half c -> is32 f -> (finite32 f /\ 65520 * 2 ^ 149 <= Z.abs (val32 f)) \/ inf32 f ->
  is16 (c f) /\ inf16 (c f) /\ neg16 (c f) = neg32 f.
Proof.
  intros c f A H [[F L]|I]; rewrite (a_f2h c f A H).
  - destruct (f2h_overflow f H F L) as (X & Y & Z0). auto.
  - destruct (f2h_inf f H I) as (X & Y & Z0). auto.
Qed.
Print Assumptions C23_float_to_half_overflow.

Theorem C23_float_to_half_nan :
  forall c f, a_float_to_half c -> is32 f -> nan32 f -> is16 (c f) /\ nan16 (c f).
Proof. intros c f A H N. rewrite (a_f2h c f A H). destruct (f2h_nan f H N). auto. Qed.
Print Assumptions C23_float_to_half_nan.

(* half -> float -> half is the identity on every pattern that is not a NaN *)
Theorem C23_round_trip :
  forall c c' h, a_float_to_half c -> a_half_to_float c' -> is16 h -> ~ nan16 h -> c (c' h) = h.
Proof.
  intros c c' h A A' H N. rewrite (a_h2f c' h A' H).
  assert (is32 (h2f h)).
  { destruct (Z.eq_dec (exp16 h) 31) as [E|E]; [now apply h2f_inf_nan|now apply h2f_exact]. }
  rewrite (a_f2h c _ A) by assumption. now apply roundtrip.
Qed.
Print Assumptions C23_round_trip.

(* the uniform and varying versions agree on every bit pattern *)
Theorem C23_uniform_varying_agree :
  (forall c c' f, a_float_to_half c -> a_float_to_half c' -> is32 f -> c f = c' f) /\
  (forall c c' h, a_half_to_float c -> a_half_to_float c' -> is16 h -> c h = c' h).
Proof.
  split; intros c c' x A A' H.
  - rewrite (a_f2h c x A H), (a_f2h c' x A' H). reflexivity.
  - rewrite (a_h2f c x A H), (a_h2f c' x A' H). reflexivity.
Qed.
Print Assumptions C23_uniform_varying_agree.

(* the _fast versions agree with the others wherever the half is a normal number (or the float's exponent
   is in the normal range of halves) *)
Theorem C23_fast :
  (forall c f, a_float_to_half c -> is32 f -> 113 <= exp32 f <= 142 -> float_to_half_fast f = c f) /\
  (forall c h, a_half_to_float c -> is16 h -> 1 <= exp16 h <= 30 -> half_to_float_fast h = c h).
Proof.
  split; intros c x A H E.
  - rewrite (a_f2h c x A H). now apply f2h_fast.
  - rewrite (a_h2f c x A H). now apply h2f_fast.
Qed.
Print Assumptions C23_fast.

Example C23_ex :
  is32 1065357312 /\ finite32 1065357312 /\ Z.abs (val32 1065357312) < 65520 * 2 ^ 149 /\
  map float_to_half_uniform [1065357312; 855638016; 864026624; 855638015; 2143289345; 1199562752; 1199566847; 1199566848; 3347054592] =
    [15361; 1; 1; 0; 32256; 31743; 31743; 31744; 64512] /\
  map half_to_float_varying [1; 1023; 15360; 31743; 31744; 32769; 65535] =
    [864026624; 947896320; 1065353216; 1199562752; 2139095040; 3011510272; 4294959104] /\
  is16 1 /\ finite16 1 /\ inf16 31744 /\ ~ nan16 15360 /\ nan16 32256 /\ nan32 2143289345 /\
  113 <= exp32 1065357312 <= 142 /\ 1 <= exp16 15360 <= 30.
Proof.
  repeat match goal with |- _ /\ _ => split end; try reflexivity; try (unfold is32, is16; lia); try discriminate;
    try (split; [reflexivity|reflexivity || discriminate]); try (vm_compute; intuition congruence).
Qed.

(** ** C46: the result of float_to_half does not depend on whether the target converts in hardware *)

(* off ties, the software result is the nearest half that the hardware returns *)
Theorem C46_agree_off_ties_partial :
  forall c f h, a_float_to_half c -> is32 f -> finite32 f -> Z.abs (val32 f) < 65520 * 2 ^ 149 ->
  nearest_ties_even f h ->
  (forall h', is16 h' -> finite16 h' -> dist h' f = dist h f -> val16 h' = val16 h) ->
  val16 (c f) = val16 h.
Proof.
  intros c f h A H F L (I & J & K) U. destruct (C23_float_to_half_nearest c f A H F L) as ((X & Y & Z0) & _).
  apply U; [exact X|exact Y|]. destruct (Z0 h I J) as [P _]. destruct (K (c f) X Y) as [Q _]. lia.
Qed.
Print Assumptions C46_agree_off_ties_partial.

(* but on ties the software conversion rounds away from zero: 1 + 2^-11 becomes 1 + 2^-10 in software and 1
   in hardware *)
Theorem C46_ties_refuted :
  exists f h, is32 f /\ finite32 f /\ nearest_ties_even f h /\ forall c, a_float_to_half c -> val16 (c f) <> val16 h.
Proof.
  exists 1065357312, 15360. assert (H : is32 1065357312) by (unfold is32; lia).
  assert (F : finite32 1065357312) by (intro; discriminate).
  assert (C : forall c, a_float_to_half c -> c 1065357312 = 15361).
  { intros c A. rewrite (a_f2h c _ A H). rewrite <- f2h_uniform by exact H. reflexivity. }
  split; [exact H|]. split; [exact F|]. split.
  - split; [unfold is16; lia|]. split; [intro; discriminate|]. intros h' I J.
    destruct (C23_float_to_half_nearest float_to_half_uniform 1065357312 F2Huniform H F) as ((X & Y & Z0) & _).
    { vm_compute. reflexivity. }
    rewrite (C _ F2Huniform) in Z0. destruct (Z0 h' I J) as [P _].
    assert (E : dist 15361 1065357312 = dist 15360 1065357312) by (vm_compute; reflexivity). rewrite E in P.
    split; [exact P|]. intros _ _. reflexivity.
  - intros c A. rewrite (C c A). intro; discriminate.
Qed.
Print Assumptions C46_ties_refuted.

Example C46_ex : (* hypotheses of the first theorem: a half is its own strict nearest *)
  exists f h, is32 f /\ finite32 f /\ Z.abs (val32 f) < 65520 * 2 ^ 149 /\ nearest_ties_even f h /\
  (forall h', is16 h' -> finite16 h' -> dist h' f = dist h f -> val16 h' = val16 h).
Proof.
  exists 1069547520 (* 1.5 *), 15872. assert (D : dist 15872 1069547520 = 0) by (vm_compute; reflexivity).
  assert (V : val32 1069547520 = val16 15872 * 2 ^ 125) by (vm_compute; reflexivity).
  split; [unfold is32; lia|]. split; [intro; discriminate|]. split; [vm_compute; reflexivity|]. split.
  - split; [unfold is16; lia|]. split; [intro; discriminate|]. intros h' _ _. rewrite D. split; [apply Z.abs_nonneg|reflexivity].
  - intros h' _ _ E. rewrite D in E. unfold dist in E. rewrite V in E. lia.
Qed.

(** ** C28: sRGB *)

(* defined, inside the table and in 0..255 for every input, including NaN and infinities; [maxmin] are
   the two behaviours of max/min *)
Theorem C28_float_to_srgb8_defined :
  forall fmax fmin f, maxmin fmax fmin -> is32 f ->
  exists v, float_to_srgb8 fmax fmin f = Some v /\ 0 <= v <= 255 /\ (nan32 f -> v = 0).
Proof.
  intros fmax fmin f M H. exists (srgb_of (clampv f)). split; [exact (srgb_interp fmax fmin f M H)|].
  split; [apply srgb_of_range, clampv_range|]. intros [E N]. unfold clampv.
  rewrite (proj1 (exp32_mod f H)) in E. rewrite man32_mod in N by exact H.
  destruct (Z.ltb_spec (255 * 2 ^ 23) (f mod 2 ^ 31)); [reflexivity|lia].
Qed.
Print Assumptions C28_float_to_srgb8_defined.

(* monotone on everything but NaN ([val32] of an infinity exceeds every finite value) *)
Theorem C28_float_to_srgb8_monotone :
  forall fmax fmin f g v w, maxmin fmax fmin -> is32 f -> is32 g -> ~ nan32 f -> ~ nan32 g -> val32 f <= val32 g ->
  float_to_srgb8 fmax fmin f = Some v -> float_to_srgb8 fmax fmin g = Some w -> v <= w.
Proof.
  intros fmax fmin f g v w M Hf Hg Nf Ng L Ev Ew.
  rewrite (srgb_interp fmax fmin f M Hf) in Ev. rewrite (srgb_interp fmax fmin g M Hg) in Ew.
  injection Ev as <-. injection Ew as <-.
  apply (srgb_of_mono (clampv f) (clampv g)); [apply clampv_range|now apply clampv_mono|apply clampv_range].
Qed.
Print Assumptions C28_float_to_srgb8_monotone.

(* zero and negative values give 0, values of at least one give 255 *)
Theorem C28_float_to_srgb8_ends :
  forall fmax fmin f, maxmin fmax fmin -> is32 f -> ~ nan32 f ->
  (val32 f <= 0 -> float_to_srgb8 fmax fmin f = Some 0) /\ (2 ^ 149 <= val32 f -> float_to_srgb8 fmax fmin f = Some 255).
Proof.
  intros fmax fmin f M H N. split; intros L; rewrite (srgb_interp fmax fmin f M H); f_equal; fold (srgb_of (clampv f)).
  - assert (E : clampv f <= clampv 0) by (apply clampv_mono; auto; [unfold is32; lia|intros [X _]; discriminate]).
    assert (R : NZ <= clampv f <= AO) by apply clampv_range. change (clampv 0) with NZ in E. replace (clampv f) with NZ by lia. reflexivity.
  - assert (E : clampv (127 * 2 ^ 23) <= clampv f) by (apply clampv_mono; auto; [unfold is32; lia|intros [X _]; discriminate]).
    assert (R : NZ <= clampv f <= AO) by apply clampv_range. change (clampv (127 * 2 ^ 23)) with AO in E.
    replace (clampv f) with AO by lia. reflexivity.
Qed.
Print Assumptions C28_float_to_srgb8_ends.

(* srgb8_to_float is strictly increasing from 0 to below 1, with either evaluation of a*b+c, clamps its
   argument, and float_to_srgb8 undoes it *)
Theorem C28_srgb8_to_float_increasing :
  forall madd i j, maddop madd -> 0 <= i -> i < j -> j <= 255 ->
  0 <= val32 (srgb8_to_float madd i) /\ val32 (srgb8_to_float madd i) < val32 (srgb8_to_float madd j) /\ val32 (srgb8_to_float madd j) < 2 ^ 149.
Proof.
  intros madd i j M Hi L Hj.
  destruct (srgb8_range madd i M ltac:(lia)) as [A _]. destruct (srgb8_range madd j M ltac:(lia)) as [B _].
  pose proof (srgb8_increasing madd i j M Hi L Hj) as C.
  rewrite !val_pos by lia. assert (E : HalfProofs.V (127 * 2 ^ 23) = 2 ^ 149) by reflexivity. rewrite <- E.
  split; [|split; apply HalfProofs2.V_lt; lia].
  change 0 with (HalfProofs.V 0). apply HalfProofs2.V_le. lia.
Qed.
Print Assumptions C28_srgb8_to_float_increasing.

Theorem C28_srgb8_to_float_clamps :
  forall madd i, srgb8_to_float madd i = srgb8_to_float madd (Z.min (Z.max i 0) 255).
Proof. intros madd i. unfold srgb8_to_float. replace (Z.min (Z.max (Z.min (Z.max i 0) 255) 0) 255) with (Z.min (Z.max i 0) 255) by lia. reflexivity. Qed.
Print Assumptions C28_srgb8_to_float_clamps.

Theorem C28_round_trip :
  forall fmax fmin madd i, maxmin fmax fmin -> maddop madd -> 0 <= i <= 255 ->
  float_to_srgb8 fmax fmin (srgb8_to_float madd i) = Some i.
Proof.
  intros fmax fmin madd i M D H. destruct (srgb8_range madd i D H) as [A B].
  assert (H32 : is32 (srgb8_to_float madd i)) by (unfold is32; lia).
  rewrite (srgb_interp fmax fmin _ M H32). f_equal. fold (srgb_of (clampv (srgb8_to_float madd i))).
  assert (E : clampv (srgb8_to_float madd i) = Z.min (Z.max (srgb8_to_float madd i) NZ) AO).
  { unfold clampv. rewrite Z.mod_small by lia. destruct (Z.ltb_spec (255 * 2 ^ 23) (srgb8_to_float madd i)); [lia|].
    unfold neg32. destruct (Z.leb_spec (2 ^ 31) (srgb8_to_float madd i)); [lia|]. reflexivity. }
  rewrite E. exact B.
Qed.
Print Assumptions C28_round_trip.

Example C28_ex :
  maxmin fmaxps32 fminps32 /\ maddop ffma32 /\
  map (float_to_srgb8 fmaxps32 fminps32) [0; 1056964608; 1065353216; 2139095040; 4286578688; 2143289344] =
    [Some 0; Some 188; Some 255; Some 255; Some 0; Some 0] /\ val32 1056964608 < val32 1065353216 /\ ~ nan32 1056964608.
Proof.
  split; [exact MMps|]. split; [exact MAfma|]. split; [vm_compute; reflexivity|]. split; [vm_compute; reflexivity|].
  intros [X _]. discriminate.
Qed.

(** ** C29: random numbers *)

(* frandom returns a multiple of 2^-23 in [0, 1), whatever the state *)
Theorem C29_frandom_range :
  forall s, let r := snd (frandom s) in
  is32 r /\ finite32 r /\ neg32 r = false /\ 0 <= val32 r < 2 ^ 149 /\ val32 r = (snd (random s) mod 2 ^ 23) * 2 ^ 126.
Proof.
  intros s. cbv zeta. pose proof (frandom_value s) as F. destruct (frandom s) as [s' r]. cbv zeta in F. cbn [snd].
  destruct F as (_ & A & B & C & D). repeat match goal with |- _ /\ _ => split end; auto; rewrite D; lia.
Qed.
Print Assumptions C29_frandom_range.

(* frandom advances the state exactly as random does *)
Theorem C29_frandom_state : forall s, fst (frandom s) = fst (random s).
Proof. intros s. unfold frandom. destruct (random s). reflexivity. Qed.
Print Assumptions C29_frandom_state.

(* no component of the state can get stuck: a state whose components satisfy L'Ecuyer's conditions leads
   only to such states *)
Theorem C29_nondegenerate_forever :
  forall s, good s -> forall n, good (nstates n s).
Proof. intros s G n. now apply nstates_good. Qed.
Print Assumptions C29_nondegenerate_forever.

(* seeds for which seed_rng establishes them *)
Theorem C29_good_seeds :
  forall seed, 2 <= seed < 2 ^ 32 -> seed mod 2 ^ 16 <> 0 -> seed / 8 <> 3203395592 (* 0xbeeff008 *) / 8 ->
  forall n, good (nstates n (seed_rng seed)).
Proof. intros seed A B C n. apply nstates_good. now apply seed_good. Qed.
Print Assumptions C29_good_seeds.

(* but not every seed does: with seed 0 the first component is 0 in every later state *)
Theorem C29_seed_refuted : exists seed, 0 <= seed < 2 ^ 32 /\ forall n, z1 (nstates n (seed_rng seed)) = 0 /\ ~ good (nstates n (seed_rng seed)).
Proof.
  exists 0. split; [lia|]. intros n. split; [apply seed0_stuck|]. intros (A & _). rewrite seed0_stuck in A. lia.
Qed.
Print Assumptions C29_seed_refuted.

Example C29_ex : good (seed_rng 12345) /\ snd (random (seed_rng 12345)) = snd (random (seed_rng 12345)) /\
  2 <= 12345 < 2 ^ 32 /\ 12345 mod 2 ^ 16 <> 0 /\ 12345 / 8 <> 3203395592 / 8 /\ val32 (snd (frandom (seed_rng 12345))) <> 0.
Proof.
  repeat match goal with |- _ /\ _ => split end; try (apply seed_good); try lia; try reflexivity; vm_compute; discriminate.
Qed.
