(** Proofs about the random numbers. *)
From Coq Require Import ZArith List Bool Lia Btauto.
From Verif Require Import RngModel RngSpec.
Import ListNotations.
Local Open Scope Z_scope.

Lemma bits_above : forall x n i, 0 <= n -> 0 <= x < 2 ^ n -> n <= i -> Z.testbit x i = false.
Proof.
  intros x n i Hn Hx Hi. destruct (Z.eq_dec x 0) as [->|]; [apply Z.testbit_0_l|].
  apply Z.bits_above_log2; [lia|]. apply Z.log2_lt_pow2; [lia|].
  apply Z.lt_le_trans with (2 ^ n); [lia|]. apply Z.pow_le_mono_r; lia.
Qed.

Lemma below_bits : forall x n, 0 <= n -> 0 <= x -> (forall i, n <= i -> Z.testbit x i = false) ->
  x < 2 ^ n.
Proof.
  intros x n Hn Hx H. destruct (Z.eq_dec x 0) as [->|N]; [apply Z.pow_pos_nonneg; lia|].
  apply Z.log2_lt_pow2; [lia|]. destruct (Z.lt_ge_cases (Z.log2 x) n) as [|G]; [assumption|].
  specialize (H _ G). rewrite Z.bit_log2 in H by lia. discriminate.
Qed.

Lemma shl32_bit : forall x n i, 0 <= n -> 0 <= i ->
  Z.testbit (shl32 x n) i = (i <? 32) && (n <=? i) && Z.testbit x (i - n).
Proof.
  intros x n i Hn Hi. unfold shl32.
  destruct (Z.ltb_spec i 32).
  - rewrite Z.mod_pow2_bits_low by lia. rewrite Z.shiftl_spec by lia.
    destruct (Z.leb_spec n i); [reflexivity|]. cbn. now rewrite Z.testbit_neg_r by lia.
  - now rewrite Z.mod_pow2_bits_high by lia.
Qed.

(* Mask of the upper 32 - k bits. *)
Definition upper (k : Z) : Z := 2 ^ 32 - 2 ^ k.

Lemma upper_bit : forall k i, 0 <= k <= 32 -> 0 <= i ->
  Z.testbit (upper k) i = (k <=? i) && (i <? 32).
Proof.
  intros k i Hk Hi. unfold upper.
  replace (2 ^ 32 - 2 ^ k) with (Z.shiftl (Z.ones (32 - k)) k).
  - rewrite Z.shiftl_spec by lia. destruct (Z.leb_spec k i).
    + destruct (Z.ltb_spec i 32).
      * rewrite Z.ones_spec_low by lia. reflexivity.
      * rewrite Z.ones_spec_high by lia. reflexivity.
    + now rewrite Z.testbit_neg_r by lia.
  - rewrite Z.shiftl_mul_pow2, Z.ones_equiv by lia.
    unfold Z.pred. rewrite Z.mul_add_distr_r, <- Z.pow_add_r by lia.
    replace (32 - k + k) with 32 by lia. lia.
Qed.

Lemma step_bit : forall q r k s z i, 0 < q -> 0 <= r -> 0 <= k <= 32 -> 0 <= s -> 0 <= i ->
  Z.testbit (word_step q r (upper k) s z) i =
  xorb ((i <? 32) && (s <=? i) && (Z.testbit z (i - s) && ((k <=? i - s) && (i - s <? 32))))
       (xorb ((i + r <? 32) && (q <=? i + r) && Z.testbit z (i + r - q)) (Z.testbit z (i + r))).
Proof.
  intros q r k s z i Hq Hr Hk Hs Hi. unfold word_step, shr32.
  rewrite Z.lxor_spec, Z.shiftr_spec, Z.lxor_spec, !shl32_bit by lia.
  f_equal. destruct (Z.leb_spec s i).
  - rewrite Z.land_spec, upper_bit by lia. reflexivity.
  - rewrite andb_false_r. reflexivity.
Qed.

Lemma step_range : forall q r k s z, 0 < q -> 0 <= r -> 0 <= k <= 32 -> 0 <= s ->
  0 <= z < 2 ^ 32 -> 0 <= word_step q r (upper k) s z < 2 ^ 32.
Proof.
  intros q r k s z Hq Hr Hk Hs Hz.
  assert (P : 0 <= word_step q r (upper k) s z).
  { unfold word_step, shr32, shl32. apply Z.lxor_nonneg.
    split; intros _; [apply Z.shiftr_nonneg, Z.lxor_nonneg; split; intros _|];
      try apply Z.mod_pos_bound; lia. }
  split; [exact P|]. apply below_bits; [lia | exact P|]. intros i Hi.
  rewrite step_bit by lia. destruct (Z.ltb_spec i 32); [lia|].
  destruct (Z.ltb_spec (i + r) 32); [lia|]. rewrite (bits_above z 32 (i + r)) by lia. reflexivity.
Qed.

(* A word with a bit in use keeps one. *)
Lemma step_alive : forall q r k s z, 0 < q -> q <= r -> 0 <= k <= 32 -> 0 <= s -> s + k = 32 - r ->
  0 <= z < 2 ^ 32 -> 2 ^ k <= z -> 2 ^ k <= word_step q r (upper k) s z.
Proof.
  intros q r k s z Hq Hr Hk Hs E Hz L.
  destruct (Z.le_gt_cases (2 ^ k) (word_step q r (upper k) s z)) as [|G]; [assumption|]. exfalso.
  pose proof (step_range q r k s z Hq ltac:(lia) Hk Hs Hz) as [P _].
  assert (B : forall i, k <= i -> Z.testbit (word_step q r (upper k) s z) i = false).
  { intros i Hi. apply (bits_above _ k); lia. }
  assert (A : forall n : nat, forall i, k <= i < k + Z.of_nat n -> i < 32 -> Z.testbit z i = false).
  { induction n as [|n IH]; intros i Hi H32; [lia|].
    destruct (Z.lt_ge_cases i (k + Z.of_nat n)) as [I1|I1]; [apply IH; lia|].
    destruct (Z.lt_ge_cases (i + s) 32) as [I2|I2].
    - specialize (B (i + s) ltac:(lia)). rewrite step_bit in B by lia.
      replace (i + s - s) with i in B by lia.
      destruct (Z.ltb_spec (i + s) 32); [|lia]. destruct (Z.leb_spec s (i + s)); [|lia].
      destruct (Z.leb_spec k i); [|lia]. destruct (Z.ltb_spec i 32); [|lia].
      destruct (Z.ltb_spec (i + s + r) 32); [lia|].
      rewrite (bits_above z 32 (i + s + r)) in B by lia. cbn [andb xorb] in B.
      rewrite andb_true_r, xorb_false_r in B. exact B.
    - specialize (B (i - r) ltac:(lia)). rewrite step_bit in B by lia.
      replace (i - r + r) with i in B by lia.
      destruct (Z.ltb_spec i 32); [|lia]. destruct (Z.leb_spec q i); [|lia].
      replace (k <=? i - r - s) with false in B by (symmetry; apply Z.leb_gt; lia).
      cbn [andb] in B. rewrite !andb_false_r in B.
      rewrite (IH (i - q)) in B by lia. now rewrite !xorb_false_l in B. }
  assert (z < 2 ^ k).
  { apply below_bits; [lia | lia |]. intros i Hi.
    destruct (Z.lt_ge_cases i 32); [apply (A 32%nat); lia | apply (bits_above z 32); lia]. }
  lia.
Qed.

(* A word with no bit in use becomes 0. *)
Lemma step_dead : forall q r k s z, 0 < q -> k + q <= r -> 0 <= k <= 32 -> 0 <= s ->
  0 <= z < 2 ^ k -> word_step q r (upper k) s z = 0.
Proof.
  intros q r k s z Hq Hr Hk Hs Hz. apply Z.bits_inj'. intros i Hi. rewrite Z.testbit_0_l.
  rewrite step_bit by lia.
  rewrite (bits_above z k (i + r)) by lia. rewrite (bits_above z k (i + r - q)) by lia.
  rewrite andb_false_r. cbn [xorb]. rewrite xorb_false_r.
  destruct (Z.leb_spec k (i - s)); [|now rewrite !andb_false_r].
  rewrite (bits_above z k (i - s)) by lia. cbn [andb]. now rewrite !andb_false_r.
Qed.

Lemma step1_eq : step1 = word_step 6 13 (upper 1) 18.
Proof. reflexivity. Qed.
Lemma step2_eq : step2 = word_step 2 27 (upper 3) 2.
Proof. reflexivity. Qed.
Lemma step3_eq : step3 = word_step 13 21 (upper 4) 7.
Proof. reflexivity. Qed.
Lemma step4_eq : step4 = word_step 3 12 (upper 7) 13.
Proof. reflexivity. Qed.

Lemma random_words : forall st, words32 st -> words32 (fst (random st)).
Proof.
  intros st (A & B & C & D). unfold words32. cbn [fst random z1 z2 z3 z4].
  rewrite step1_eq, step2_eq, step3_eq, step4_eq.
  repeat apply conj; apply step_range; lia.
Qed.

Lemma lxor_range : forall a b, 0 <= a < 2 ^ 32 -> 0 <= b < 2 ^ 32 -> 0 <= Z.lxor a b < 2 ^ 32.
Proof.
  intros a b Ha Hb. assert (0 <= Z.lxor a b) by (apply Z.lxor_nonneg; lia).
  split; [assumption|]. apply below_bits; [lia | assumption|]. intros i Hi.
  rewrite Z.lxor_spec, (bits_above a 32), (bits_above b 32) by lia. reflexivity.
Qed.

Lemma lor_range : forall a b, 0 <= a < 2 ^ 32 -> 0 <= b < 2 ^ 32 -> 0 <= Z.lor a b < 2 ^ 32.
Proof.
  intros a b Ha Hb. assert (0 <= Z.lor a b) by (apply Z.lor_nonneg; lia).
  split; [assumption|]. apply below_bits; [lia | assumption|]. intros i Hi.
  rewrite Z.lor_spec, (bits_above a 32), (bits_above b 32) by lia. reflexivity.
Qed.

Lemma random_range : forall st, words32 st -> 0 <= snd (random st) < 2 ^ 32.
Proof.
  intros st H. pose proof (random_words st H) as (A & B & C & D). unfold random in *. cbn [fst snd z1 z2 z3 z4] in *.
  apply lxor_range; [apply lxor_range; [apply lxor_range|]|]; assumption.
Qed.

Lemma random_alive : forall st, words32 st -> alive st -> alive (fst (random st)).
Proof.
  intros st (A & B & C & D) (L1 & L2 & L3 & L4). unfold alive. cbn [fst random z1 z2 z3 z4].
  rewrite step1_eq, step2_eq, step3_eq, step4_eq.
  repeat apply conj.
  - apply (step_alive 6 13 1 18); lia.
  - apply (step_alive 2 27 3 2); lia.
  - apply (step_alive 13 21 4 7); lia.
  - apply (step_alive 3 12 7 13); lia.
Qed.

Lemma after_words : forall n st, words32 st -> words32 (after n st).
Proof. induction n as [|n IH]; intros st H; [exact H|]. cbn [after]. now apply IH, random_words. Qed.

Lemma after_alive : forall n st, words32 st -> alive st -> alive (after n st).
Proof.
  induction n as [|n IH]; intros st H A; [exact A|]. cbn [after].
  apply IH; [now apply random_words | now apply random_alive].
Qed.

Lemma shr_range : forall x n, 0 <= n -> 0 <= x < 2 ^ 32 -> 0 <= shr32 x n < 2 ^ 32.
Proof.
  intros x n Hn Hx. unfold shr32. rewrite Z.shiftr_div_pow2 by lia.
  assert (0 < 2 ^ n) by (apply Z.pow_pos_nonneg; lia).
  split; [apply Z.div_pos; lia|]. apply Z.le_lt_trans with x; [|lia].
  apply Z.div_le_upper_bound; [lia|]. nia.
Qed.

Lemma land_range : forall x c, 0 <= x < 2 ^ 32 -> 0 <= c -> 0 <= Z.land x c < 2 ^ 32.
Proof.
  intros x c Hx Hc. assert (0 <= Z.land x c) by (apply Z.land_nonneg; lia).
  split; [assumption|]. apply below_bits; [lia | assumption|]. intros i Hi.
  rewrite Z.land_spec, (bits_above x 32) by lia. reflexivity.
Qed.

Lemma shl_range : forall x n, 0 <= shl32 x n < 2 ^ 32.
Proof. intros. unfold shl32. apply Z.mod_pos_bound. lia. Qed.

Lemma seed_words : forall seed, 0 <= seed < 2 ^ 32 -> words32 (seed_rng seed).
Proof.
  intros seed H. unfold words32, seed_rng. cbn [z1 z2 z3 z4]. repeat apply conj; try lia.
  all: try apply lxor_range; repeat apply lor_range; try apply shl_range;
       try (apply shr_range; [lia|]); try apply land_range; lia.
Qed.

(* A dead word stays dead. *)
Lemma dead_forever : forall n st, 0 <= z1 st < 2 -> z1 (after (S n) st) = 0.
Proof.
  intros n st H. cbn [after].
  assert (E : z1 (fst (random st)) = 0).
  { cbn [random fst z1]. rewrite step1_eq. apply (step_dead 6 13 1 18); lia. }
  revert E. generalize (fst (random st)). induction n as [|n IH]; intros st' E; [exact E|].
  cbn [after]. apply IH. cbn [random fst z1]. rewrite step1_eq, E. reflexivity.
Qed.

Lemma frandom_value : forall st, words32 st ->
  snd (frandom st) = snd (random st) mod 2 ^ 23 * 2 ^ 126.
Proof.
  intros st H. unfold frandom. pose proof (random_range st H) as R.
  destruct (random st) as [st' n]. cbn [snd] in *.
  change (Z.shiftl 1 23 - 1) with (Z.ones 23). rewrite Z.land_ones by lia.
  set (x := n mod 2 ^ 23). assert (Hx : 0 <= x < 2 ^ 23) by (apply Z.mod_pos_bound; lia).
  assert (O : Z.lor 1065353216 x = 1065353216 + x).
  { symmetry. rewrite <- Z.lxor_lor; [apply Z.add_nocarry_lxor|];
      apply Z.bits_inj'; intros i Hi; rewrite Z.land_spec, Z.testbit_0_l;
      (destruct (Z.lt_ge_cases i 23);
       [change 1065353216 with (Z.shiftl 127 23); rewrite Z.shiftl_spec_low by lia; reflexivity
       | rewrite (bits_above x 23) by lia; apply andb_false_r]). }
  rewrite O. unfold float_units.
  replace (Z.shiftr (1065353216 + x) 23) with 127.
  2:{ rewrite Z.shiftr_div_pow2 by lia. apply Z.div_unique with x; lia. }
  replace ((1065353216 + x) mod 2 ^ 23) with x by (apply Z.mod_unique with 127; lia).
  change (Z.shiftr 1065353216 23 mod 256 - 1) with 126. change (127 mod 256 - 1) with 126.
  change (1065353216 mod 2 ^ 23) with 0.
  rewrite <- Z.mul_sub_distr_r. f_equal. lia.
Qed.

(** ** Seed 0 *)

(* Only the second word is used. *)
Lemma zero_second : forall n, let st := after n (seed_rng 0) in
  z1 st = 0 /\ z3 st = 0 /\ z4 st = 0.
Proof.
  intros n. cbn zeta.
  assert (G : forall n st, z1 st = 0 /\ z3 st = 0 /\ z4 st = 0 ->
                let st' := after n st in z1 st' = 0 /\ z3 st' = 0 /\ z4 st' = 0).
  { clear n. induction n as [|n IH]; intros st (A & B & C); [cbn; auto|].
    cbn [after]. apply IH. cbn [random fst z1 z3 z4]. rewrite A, B, C. now vm_compute. }
  apply G. now vm_compute.
Qed.

Lemma zero_number : forall n, snd (random (after n (seed_rng 0))) = z2 (after (S n) (seed_rng 0)).
Proof.
  intros n.
  assert (A : after (S n) (seed_rng 0) = fst (random (after n (seed_rng 0)))).
  { generalize (seed_rng 0). induction n as [|n IH]; intros st; [reflexivity|].
    cbn [after] in *. now rewrite IH. }
  pose proof (zero_second (S n)) as (B & C & D). cbn zeta in *. rewrite A in B, C, D. rewrite A.
  cbn [random fst snd z1 z2 z3 z4] in *. rewrite B, C, D.
  now rewrite Z.lxor_0_l, !Z.lxor_0_r.
Qed.

Lemma step2_high : forall z i, 0 <= z < 2 ^ 32 -> 5 <= i < 32 ->
  Z.testbit (step2 z) i = Z.testbit z (i - 2).
Proof.
  intros z i Hz Hi. rewrite step2_eq, step_bit by lia.
  destruct (Z.ltb_spec i 32); [|lia]. destruct (Z.leb_spec 2 i); [|lia].
  destruct (Z.leb_spec 3 (i - 2)); [|lia]. destruct (Z.ltb_spec (i - 2) 32); [|lia].
  destruct (Z.ltb_spec (i + 27) 32); [lia|]. rewrite (bits_above z 32 (i + 27)) by lia.
  cbn [andb xorb]. now rewrite andb_true_r, xorb_false_r.
Qed.

Lemma zero_copies : forall n i, 5 <= i < 32 ->
  Z.testbit (snd (random (after (S n) (seed_rng 0)))) i =
  Z.testbit (snd (random (after n (seed_rng 0)))) (i - 2).
Proof.
  intros n i Hi. rewrite !zero_number.
  assert (A : forall k st, after (S k) st = fst (random (after k st))).
  { induction k as [|k IH]; intros st; [reflexivity|]. cbn [after] in *. now rewrite IH. }
  rewrite (A (S n)). cbn [random fst z2]. apply step2_high; [|exact Hi].
  apply (after_words (S n) (seed_rng 0)). apply seed_words. lia.
Qed.

(** ** Program instances *)

Lemma vrun_own : forall l masks st, own l masks (vrun masks st) =
  numbers (length (filter (fun m => m l) masks)) (lane_state st l).
Proof.
  intros l masks. induction masks as [|m masks IH]; intros st; [reflexivity|].
  cbn [vrun]. destruct (vrandom m st) as [st' x] eqn:E. unfold vrandom in E.
  injection E as <- <-. cbn [own filter].
  destruct (m l) eqn:M; rewrite IH.
  - cbn [length numbers]. unfold random at 1. cbn [lane_state v1 v2 v3 v4 z1 z2 z3 z4].
    unfold masked. rewrite M. f_equal. f_equal. unfold lane_state. cbn [v1 v2 v3 v4]. now rewrite M.
  - f_equal. unfold lane_state, masked. cbn [v1 v2 v3 v4]. now rewrite M.
Qed.

Lemma vseed_lane : forall mask seed old l,
  lane_state (vseed_rng mask seed old) l = if mask l then seed_rng (seed l) else lane_state old l.
Proof.
  intros. unfold lane_state, vseed_rng, masked. cbn [v1 v2 v3 v4].
  destruct (mask l); [|reflexivity]. now destruct (seed_rng (seed l)).
Qed.

(** ** Seeds *)

Lemma bit_le : forall x j, 0 <= j -> 0 <= x -> Z.testbit x j = true -> 2 ^ j <= x.
Proof.
  intros x j Hj Hx B. destruct (Z.le_gt_cases (2 ^ j) x) as [|G]; [assumption|].
  rewrite (bits_above x j j) in B by lia. discriminate.
Qed.

Lemma low_bit : forall seed, 0 <= seed -> seed mod 2 ^ 16 <> 0 ->
  exists i, 0 <= i < 16 /\ Z.testbit seed i = true.
Proof.
  intros seed H N. set (x := seed mod 2 ^ 16) in *.
  assert (Hx : 0 <= x < 2 ^ 16) by (apply Z.mod_pos_bound; lia).
  exists (Z.log2 x).
  assert (Z.log2 x < 16) by (apply Z.log2_lt_pow2; lia).
  pose proof (Z.log2_nonneg x). split; [lia|].
  rewrite <- (Z.mod_pow2_bits_low seed 16) by lia. fold x. apply Z.bit_log2. lia.
Qed.

Lemma seed_alive : forall seed, 0 <= seed < 2 ^ 32 ->
  seed mod 2 ^ 16 <> 0 -> seed <> 1 -> seed / 8 <> 3203395597 / 8 -> alive (seed_rng seed).
Proof.
  intros seed H N N1 N2. pose proof (seed_words seed H) as (W1 & W2 & W3 & W4).
  destruct (low_bit seed ltac:(lia) N) as (i & Hi & B).
  unfold alive. repeat apply conj.
  - cbn [seed_rng z1]. destruct (Z.eq_dec seed 0) as [->|]; [now vm_compute in N | lia].
  - cbn [seed_rng z2] in *. destruct (Z.le_gt_cases 8 (Z.lxor seed 3203395597)) as [|G]; [assumption|].
    exfalso. apply N2. rewrite <- !(Z.shiftr_div_pow2 _ 3) by lia.
    apply Z.lxor_eq. rewrite <- Z.shiftr_lxor. rewrite Z.shiftr_div_pow2 by lia.
    apply Z.div_small. lia.
  - apply Z.le_trans with (2 ^ (i + 16)); [apply Z.le_trans with (2 ^ 4); [lia | apply Z.pow_le_mono_r; lia]|].
    apply bit_le; [lia | lia|]. cbn [seed_rng z3]. rewrite Z.lor_spec, shl32_bit by lia.
    destruct (Z.ltb_spec (i + 16) 32); [|lia]. destruct (Z.leb_spec 16 (i + 16)); [|lia].
    replace (i + 16 - 16) with i by lia. rewrite Z.land_spec, B.
    change 65535 with (Z.ones 16). rewrite Z.ones_spec_low by lia. reflexivity.
  - destruct (Z.lt_ge_cases i 8) as [L|L].
    + apply Z.le_trans with (2 ^ (i + 24)); [apply Z.le_trans with (2 ^ 7); [lia | apply Z.pow_le_mono_r; lia]|].
      apply bit_le; [lia | lia|]. cbn [seed_rng z4]. rewrite !Z.lor_spec, shl32_bit by lia.
      destruct (Z.ltb_spec (i + 24) 32); [|lia]. destruct (Z.leb_spec 24 (i + 24)); [|lia].
      replace (i + 24 - 24) with i by lia. rewrite Z.land_spec, B.
      change 255 with (Z.ones 8). rewrite Z.ones_spec_low by lia. reflexivity.
    + apply Z.le_trans with (2 ^ (i + 8)); [apply Z.le_trans with (2 ^ 7); [lia | apply Z.pow_le_mono_r; lia]|].
      apply bit_le; [lia | lia|]. cbn [seed_rng z4]. rewrite !Z.lor_spec, (shl32_bit (Z.land seed 65280)) by lia.
      destruct (Z.ltb_spec (i + 8) 32); [|lia]. destruct (Z.leb_spec 8 (i + 8)); [|lia].
      replace (i + 8 - 8) with i by lia. rewrite Z.land_spec, B.
      change 65280 with (Z.shiftl (Z.ones 8) 8). rewrite Z.shiftl_spec, Z.ones_spec_low by lia.
      cbn [andb]. now rewrite orb_true_r.
Qed.

(** ** Exactly which seeds are good *)

Lemma lor_add : forall x y n, 0 <= n -> 0 <= y < 2 ^ n -> Z.lor (x * 2 ^ n) y = x * 2 ^ n + y.
Proof.
  intros x y n Hn Hy. rewrite <- Z.shiftl_mul_pow2 by lia.
  assert (D : Z.land (Z.shiftl x n) y = 0).
  { apply Z.bits_inj'. intros i Hi. rewrite Z.land_spec, Z.testbit_0_l.
    destruct (Z.lt_ge_cases i n); [now rewrite Z.shiftl_spec_low by lia|].
    rewrite (bits_above y n) by lia. apply andb_false_r. }
  rewrite <- Z.lxor_lor by exact D. symmetry. now apply Z.add_nocarry_lxor.
Qed.

Lemma land_byte : forall seed n, 0 <= n ->
  Z.land seed (Z.shiftl 255 n) = (seed / 2 ^ n mod 256) * 2 ^ n.
Proof.
  intros seed n Hn. rewrite <- Z.shiftl_mul_pow2 by lia.
  change 256 with (2 ^ 8). rewrite <- Z.land_ones by lia. rewrite <- Z.shiftr_div_pow2 by lia.
  rewrite Z.shiftl_land. change (Z.ones 8) with 255.
  apply Z.bits_inj'. intros i Hi. rewrite !Z.land_spec.
  destruct (Z.lt_ge_cases i n).
  - rewrite (Z.shiftl_spec_low 255) by lia. now rewrite !andb_false_r.
  - rewrite (Z.shiftl_spec (Z.shiftr seed n)), Z.shiftr_spec by lia. f_equal. f_equal. lia.
Qed.

Lemma seed_z3 : forall seed, 0 <= seed < 2 ^ 32 ->
  z3 (seed_rng seed) = seed mod 2 ^ 16 * 2 ^ 16 + seed / 2 ^ 16.
Proof.
  intros seed H. cbn [seed_rng z3]. unfold shl32, shr32.
  change 65535 with (Z.ones 16). rewrite Z.land_ones, Z.shiftl_mul_pow2, Z.shiftr_div_pow2 by lia.
  pose proof (Z.mod_pos_bound seed (2 ^ 16) ltac:(lia)).
  assert (seed / 2 ^ 16 < 2 ^ 16) by (apply Z.div_lt_upper_bound; lia).
  assert (0 <= seed / 2 ^ 16) by (apply Z.div_pos; lia).
  rewrite Z.mod_small by lia. now apply lor_add.
Qed.

Lemma seed_z4 : forall seed, 0 <= seed < 2 ^ 32 ->
  z4 (seed_rng seed) =
  seed mod 256 * 2 ^ 24 + seed / 2 ^ 8 mod 256 * 2 ^ 16 + seed / 2 ^ 16 mod 256 * 2 ^ 8 + seed / 2 ^ 24.
Proof.
  intros seed H. cbn [seed_rng z4]. unfold shl32, shr32.
  change 65280 with (Z.shiftl 255 8). change 16711680 with (Z.shiftl 255 16).
  change 4278190080 with (Z.shiftl 255 24).
  replace (Z.land seed 255) with (seed mod 256)
    by (change 255 with (Z.ones 8); rewrite Z.land_ones by lia; reflexivity).
  rewrite !land_byte by lia.
  pose proof (Z.mod_pos_bound seed 256 ltac:(lia)).
  pose proof (Z.mod_pos_bound (seed / 2 ^ 8) 256 ltac:(lia)).
  pose proof (Z.mod_pos_bound (seed / 2 ^ 16) 256 ltac:(lia)).
  assert (E : 0 <= seed / 2 ^ 24 < 256)
    by (split; [apply Z.div_pos; lia | apply Z.div_lt_upper_bound; lia]).
  rewrite (Z.mod_small (seed / 2 ^ 24) 256) by exact E.
  set (b0 := seed mod 256) in *. set (b1 := seed / 2 ^ 8 mod 256) in *.
  set (b2 := seed / 2 ^ 16 mod 256) in *. set (b3 := seed / 2 ^ 24) in *.
  rewrite !Z.shiftl_mul_pow2, !Z.shiftr_div_pow2 by lia.
  replace (b2 * 2 ^ 16 / 2 ^ 8) with (b2 * 2 ^ 8) by (apply Z.div_unique with 0; lia).
  rewrite (Z.div_mul b3) by lia.
  rewrite (Z.mod_small (b0 * 2 ^ 24)) by lia. rewrite (Z.mod_small (b1 * 2 ^ 8 * 2 ^ 8)) by lia.
  replace (b1 * 2 ^ 8 * 2 ^ 8) with (b1 * 2 ^ 16) by lia.
  rewrite lor_add by lia.
  replace (b0 * 2 ^ 24 + b1 * 2 ^ 16) with ((b0 * 2 ^ 8 + b1) * 2 ^ 16) by lia.
  rewrite lor_add by lia.
  replace ((b0 * 2 ^ 8 + b1) * 2 ^ 16 + b2 * 2 ^ 8) with (((b0 * 2 ^ 8 + b1) * 2 ^ 8 + b2) * 2 ^ 8) by lia.
  rewrite lor_add by lia. lia.
Qed.

Lemma xor_block : forall a b, 0 <= a -> 0 <= b -> (Z.lxor a b < 8 <-> a / 8 = b / 8).
Proof.
  intros a b Ha Hb. rewrite <- !(Z.shiftr_div_pow2 _ 3) by lia.
  assert (P : 0 <= Z.lxor a b) by (apply Z.lxor_nonneg; lia).
  assert (Q : Z.lxor a b < 8 <-> Z.shiftr (Z.lxor a b) 3 = 0).
  { rewrite Z.shiftr_div_pow2 by lia. change (2 ^ 3) with 8. split; intros H.
    - apply Z.div_small. lia.
    - apply Z.div_small_iff in H; lia. }
  rewrite Q, Z.shiftr_lxor. apply Z.lxor_eq_0_iff.
Qed.

Lemma seed_exact : forall seed, 0 <= seed < 2 ^ 32 ->
  (alive (seed_rng seed) <->
   2 <= seed /\ seed / 8 <> 3203395597 / 8 /\
   ~ (seed mod 2 ^ 16 = 0 /\ seed / 2 ^ 16 < 16) /\ ~ (seed mod 2 ^ 24 = 0 /\ seed / 2 ^ 24 < 128)).
Proof.
  intros seed H. unfold alive. rewrite (seed_z3 seed H), (seed_z4 seed H).
  cbn [seed_rng z1 z2]. pose proof (xor_block seed 3203395597 ltac:(lia) ltac:(lia)) as X.
  assert (E3 : 16 <= seed mod 2 ^ 16 * 2 ^ 16 + seed / 2 ^ 16 <->
               ~ (seed mod 2 ^ 16 = 0 /\ seed / 2 ^ 16 < 16)).
  { pose proof (Z.mod_pos_bound seed (2 ^ 16) ltac:(lia)).
    assert (0 <= seed / 2 ^ 16) by (apply Z.div_pos; lia). lia. }
  assert (E4 : 128 <= seed mod 256 * 2 ^ 24 + seed / 2 ^ 8 mod 256 * 2 ^ 16 +
                      seed / 2 ^ 16 mod 256 * 2 ^ 8 + seed / 2 ^ 24 <->
               ~ (seed mod 2 ^ 24 = 0 /\ seed / 2 ^ 24 < 128)).
  { assert (seed mod 2 ^ 24 =
            seed mod 256 + seed / 2 ^ 8 mod 256 * 2 ^ 8 + seed / 2 ^ 16 mod 256 * 2 ^ 16).
    { change (2 ^ 24) with (256 * (256 * 256)). rewrite Z.rem_mul_r by lia.
      rewrite Z.rem_mul_r by lia. change (2 ^ 8) with 256. change (2 ^ 16) with (256 * 256).
      rewrite <- Z.div_div by lia. lia. }
    pose proof (Z.mod_pos_bound seed 256 ltac:(lia)).
    pose proof (Z.mod_pos_bound (seed / 2 ^ 8) 256 ltac:(lia)).
    pose proof (Z.mod_pos_bound (seed / 2 ^ 16) 256 ltac:(lia)).
    assert (0 <= seed / 2 ^ 24) by (apply Z.div_pos; lia). lia. }
  rewrite E3, E4. split; intros (A & B & C & D); repeat apply conj; try assumption; try lia.
Qed.
