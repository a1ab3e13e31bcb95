(** Rounding by adding and subtracting a large number. *)
From Coq Require Import ZArith Lia Bool SpecFloat.
From Verif Require Import Bits FpProofs FloatModel FloatSpec FloatProofs FloatProofs2.
Local Open Scope Z_scope.

Section M.
Variable F : fmt.
Hypothesis W : wf F.
Notation P := (prec F).
Notation E := (emx F).
Notation em := (emin (prec F) (emx F)).
Notation U := (unit1 F).
Notation w1 := (width F - 1).

Lemma small_ok m : Z.abs m <= 2 ^ P -> rounded P (m * U) = m * U /\ Z.abs (m * U) < 2 ^ (E - em).
Proof.
  intros Hm. pose proof (em_neg F W) as EN. pose proof (unit1_pos F W) as UP. rewrite unit1_em in *. pose proof (W1 F W) as W1. pose proof (W2 F W) as W2.
  assert (B : Z.abs (m * 2 ^ (- em)) < 2 ^ (E - em)).
  { rewrite Z.abs_mul, (Z.abs_eq (2 ^ _)) by lia. replace (E - em) with (E + - em) by lia. rewrite Z.pow_add_r by lia.
    apply Z.mul_lt_mono_pos_r; [lia|]. apply Z.le_lt_trans with (2 ^ P); [lia|]. apply Z.pow_lt_mono_r; lia. }
  split; [|exact B]. destruct (Z.eq_dec (Z.abs m) (2 ^ P)) as [Eq|NE].
  - assert (S1 : 1 < 2 ^ P) by (apply Z.pow_gt_1; lia).
    destruct (Z.le_ge_cases 0 m) as [S|S].
    + replace m with (2 ^ P) by lia. apply (rounded_exact P W1 _ 1 (P + - em)); [rewrite Z.pow_add_r by lia; ring|lia|cbn; lia].
    + replace m with (- 2 ^ P) by lia. apply (rounded_exact P W1 _ (-1) (P + - em)); [rewrite Z.pow_add_r by lia; ring|lia|cbn; lia].
  - apply (rounded_exact P W1 _ m (- em)); [reflexivity|lia|lia].
Qed.

(** Sums between 2^mw and 2^prec are rounded to an integer. *)
Lemma round_to_integer N : 2 ^ mw F * U <= N <= 2 ^ P * U -> rounded P N = rne N (- em) * U /\ Z.abs (rounded P N) < 2 ^ (E - em) /\
  N / U <= rne N (- em) <= 2 ^ P.
Proof.
  intros [L H]. pose proof (em_neg F W) as EN. pose proof (unit1_pos F W) as UP. pose proof (pow_mw F W) as PM. pose proof (W1 F W) as W1.
  assert (RB : N / U <= rne N (- em) <= 2 ^ P).
  { assert (HN : 0 <= N) by nia. pose proof (rne_bounds N (- em) HN EN) as RB. rewrite <- unit1_em in RB. split; [lia|].
    destruct (Z.eq_dec N (2 ^ P * U)) as [->|NE]; [rewrite unit1_em, rne_exact; lia|].
    enough (N / U < 2 ^ P) by lia. apply Z.div_lt_upper_bound; lia. }
  assert (RR : rounded P N = rne N (- em) * U).
  { destruct (Z.eq_dec N (2 ^ P * U)) as [->|NE].
    - rewrite (proj1 (small_ok (2 ^ P) ltac:(rewrite Z.abs_eq by (apply Z.pow_nonneg; lia); lia))). rewrite unit1_em, rne_exact; lia.
    - assert (HN : 0 < N) by nia. unfold rounded. rewrite Z.abs_eq by lia. replace (N <? 0) with false by (symmetry; apply Z.ltb_ge; lia). cbn [cond_Zopp].
      assert (S : scale P N = - em); [|rewrite S, unit1_em; reflexivity].
      rewrite unit1_em in *. rewrite <- !Z.pow_add_r in * by (destruct W as (? & ? & ?); lia).
      assert (D1 : mw F + - em < Zdigits2 N) by (apply digits_ge; destruct W as (? & ? & ?); lia).
      assert (D2 : Zdigits2 N <= P + - em).
      { apply digits_le; [lia|lia|]. lia. }
      unfold scale. unfold prec in *. lia. }
  split; [exact RR|]. split; [|exact RB]. rewrite RR. apply small_ok. pose proof (Z.div_pos N U ltac:(nia) UP). lia.
Qed.

Variable K : Z.
Variable k : Z.
Hypothesis HK : 0 <= K < 2 ^ w1.
Hypothesis FK : finite F K.
Hypothesis UK : units F K = k * U.
Hypothesis Hk : 2 ^ mw F <= k <= 2 ^ P.
Hypothesis Ek : Z.even k = true.

(** |x| + K - K *)
Lemma magic_core a : 0 <= a < 2 ^ w1 -> finite F a -> units F a <= (2 ^ P - k) * U ->
  let y := fadd F (fadd F a K) (Z.lxor K (2 ^ w1)) in
  exists r, 0 <= r <= 2 ^ P - k /\ 0 <= y < 2 ^ w1 /\ finite F y /\ units F y = r * U /\ nearest_even (units F a) U r.
Proof.
  intros Ha Fa HA y. pose proof (unit1_pos F W) as UP. pose proof (pow_w F W) as PW. pose proof (W1 F W) as W1. pose proof (W2 F W) as W2. pose proof (pow_mw F W) as PM.
  assert (Pa : pattern F a) by (unfold pattern; lia). assert (PK : pattern F K) by (unfold pattern; lia).
  assert (A0 : 0 <= units F a) by (unfold units; replace (2 ^ w1 <=? a) with false by (symmetry; apply Z.leb_gt; lia); apply magnitude_nonneg; exact W).
  set (N := units F a + units F K). assert (HN : 2 ^ mw F * U <= N <= 2 ^ P * U) by (unfold N; rewrite UK; nia).
  destruct (round_to_integer N HN) as (RR & RB & Q1 & Q2). set (q := rne N (- em)) in *.
  destruct (fadd_val F W a K Pa Fa PK FK RB) as (P1 & F1 & V1 & _). fold N in V1. rewrite RR in V1.
  destruct (join_sign F W K (2 ^ w1) HK (or_intror eq_refl)) as (P2 & X2 & _ & _ & V2).
  replace (2 ^ w1 =? 0) with false in V2 by (symmetry; apply Z.eqb_neq; pose proof (pow2_pos w1 (w1_nonneg F W)); lia).
  assert (F2 : finite F (Z.lxor K (2 ^ w1))) by (unfold finite in *; rewrite X2; exact FK).
  rewrite UK in V2.
  assert (KQ : k <= q).
  { apply Z.le_trans with (N / U); [|exact Q1]. apply Z.div_le_lower_bound; [exact UP|]. unfold N. rewrite UK. lia. }
  assert (ES : units F (fadd F a K) + units F (Z.lxor K (2 ^ w1)) = (q - k) * U) by (rewrite V1, V2; ring).
  destruct (small_ok (q - k) ltac:(rewrite Z.abs_eq; lia)) as [R3 B3].
  destruct (fadd_val F W (fadd F a K) (Z.lxor K (2 ^ w1)) P1 F1 P2 F2) as (P4 & F4 & V4 & S4); [rewrite ES, R3; exact B3|].
  rewrite ES, R3 in V4. fold y in P4, F4, V4, S4.
  assert (SG : (2 ^ w1 <=? y) = false).
  { (* the result is +0 or positive *)
    rewrite S4. pose proof (decode_val F W _ P1 F1) as D1. pose proof (decode_val F W _ P2 F2) as D2. rewrite V1 in D1. rewrite V2 in D2.
    assert (VY : val P E (SFadd P E (decode F (fadd F a K)) (decode F (Z.lxor K (2 ^ w1)))) ((q - k) * U)).
    { rewrite <- R3. replace ((q - k) * U) with (q * U + - (k * U)) by ring. apply add_val; auto. replace (q * U + - (k * U)) with ((q - k) * U) by ring. rewrite R3. exact B3. }
    destruct (Z.eq_dec q k) as [Eq|NE].
    - (* exact cancellation *)
      rewrite (add_cancel P E W1 _ _ (q * U) D1); [reflexivity|rewrite Eq; exact D2|nia].
    - destruct VY as [(s0 & E0 & Z0)|(s0 & p0 & t0 & E0 & Z0 & Ht0 & _)]; [nia|]. rewrite E0. cbn.
      destruct s0; [|reflexivity]. exfalso. cbn [cond_Zopp] in Z0. pose proof (pow2_pos t0 ltac:(lia)). nia. }
  apply Z.leb_gt in SG. exists (q - k). unfold pattern in P4. repeat split; auto; try lia; try nia.
  - destruct (rne_near N (- em) (em_neg F W)) as [NE _]. fold q in NE. rewrite <- unit1_em in NE.
    replace (units F a - (q - k) * U) with (N - q * U) by (unfold N; rewrite UK; ring). exact NE.
  - destruct (rne_near N (- em) (em_neg F W)) as [_ NE]. fold q in NE. rewrite <- unit1_em in NE.
    replace (units F a - (q - k) * U) with (N - q * U) by (unfold N; rewrite UK; ring). intros X. rewrite Z.even_sub, (NE X), Ek. reflexivity.
Qed.

Lemma nearest_opp n d r : nearest_even n d r -> nearest_even (- n) d (- r).
Proof.
  intros [A B]. unfold nearest_even. replace (- n - - r * d) with (- (n - r * d)) by ring. rewrite Z.abs_opp, Z.even_opp. auto.
Qed.

Lemma magic_round_ok x : pattern F x -> finite F x -> Z.abs (units F x) <= (2 ^ P - k) * U ->
  exists r, is_integer F (magic_round F K x) r /\ nearest_even (units F x) U r /\
    (negative F (magic_round F K x) <-> negative F x) /\ Z.abs r <= 2 ^ P - k.
Proof.
  intros Px Fx HX. destruct (split_sign F W x Px) as (Ha & Ea & _ & _ & Ua & C). unfold magic_round.
  set (sign := Z.land x (2 ^ w1)) in *. set (a := Z.lxor x sign) in *.
  assert (Fa : finite F a) by (unfold finite in *; rewrite Ea; exact Fx).
  destruct (magic_core a Ha Fa ltac:(lia)) as (r & Hr & Hy & Fy & Uy & NE).
  set (y := fadd F (fadd F a K) (Z.lxor K (2 ^ w1))) in *.
  assert (SS : sign = 0 \/ sign = 2 ^ w1) by tauto.
  destruct (join_sign F W y sign Hy SS) as (P3 & X3 & _ & S3 & U3).
  assert (F3 : finite F (Z.lxor y sign)) by (unfold finite in *; rewrite X3; exact Fy).
  pose proof (pow2_pos w1 (w1_nonneg F W)) as PW.
  destruct C as [(S0 & XA & SX)|(S1 & XA & SX)].
  - exists r. rewrite S0 in *. change (0 =? 0) with true in *. cbn [negb] in S3. cbv iota in U3.
    assert (U0 : units F a = units F x) by congruence. rewrite U0 in NE. unfold is_integer, negative. apply Z.leb_gt in S3. apply Z.leb_gt in SX.
    repeat split; auto; try lia; try apply NE; try apply P3.
  - exists (- r). rewrite S1 in *. replace (2 ^ w1 =? 0) with false in * by (symmetry; apply Z.eqb_neq; lia). cbn [negb] in S3.
    assert (U0 : units F x = - units F a) by (rewrite XA; apply units_flip; assumption). apply nearest_opp in NE. rewrite <- U0 in NE.
    unfold is_integer, negative. apply Z.leb_le in S3. apply Z.leb_le in SX.
    repeat split; auto; try lia; try apply NE; try apply P3.
Qed.

Lemma one_val : 0 <= bits_one F < 2 ^ w1 /\ finite F (bits_one F) /\ units F (bits_one F) = U.
Proof.
  pose proof (W1 F W) as W1. pose proof (W2 F W) as W2. pose proof (ew2 F W) as E2. pose proof (pow_mw F W) as PM.
  destruct (of_fields F W false (E - 1) 0) as (P0 & X0 & R0 & S0); [lia|lia|]. cbn [sign_of] in *. rewrite Z.add_0_l, Z.add_0_r in *. fold (bits_one F) in *.
  unfold finite. rewrite X0. apply Z.leb_gt in S0. repeat split; try lia; try apply P0.
  unfold units. replace (2 ^ w1 <=? bits_one F) with false by (symmetry; apply Z.leb_gt; exact S0).
  unfold magnitude. rewrite X0, R0. replace (E - 1 =? 0) with false by (symmetry; apply Z.eqb_neq; lia). rewrite Z.add_0_r.
  rewrite <- Z.pow_add_r by (destruct W as (? & ? & ?); lia). unfold unit1. f_equal. unfold emx. lia.
Qed.

Lemma zero_val : pattern F 0 /\ finite F 0 /\ units F 0 = 0.
Proof.
  pose proof (pow_mw F W) as PM. pose proof (pow_ew F W). destruct (of_fields F W false 0 0) as (P0 & X0 & R0 & S0); [lia|lia|]. cbn [sign_of] in *.
  change (0 + 0 * 2 ^ mw F + 0) with 0 in *. split; [exact P0|]. unfold finite, units, magnitude. rewrite X0, S0, R0. cbn. split; [lia|reflexivity].
Qed.

Lemma add_one y d r t : is_integer F y r -> pattern F d -> finite F d -> units F d = t * U -> Z.abs (r + t) <= 2 ^ P -> is_integer F (fadd F y d) (r + t).
Proof.
  intros (Py & Fy & Uy) Pd Fd Ud B. destruct (small_ok (r + t) B) as [R L].
  assert (ES : units F y + units F d = (r + t) * U) by (rewrite Uy, Ud; ring).
  destruct (fadd_val F W y d Py Fy Pd Fd) as (P4 & F4 & V4 & _); [rewrite ES, R; exact L|]. rewrite ES, R in V4. repeat split; auto; apply P4.
Qed.

Lemma neg_one_val : let d := Z.lxor (bits_one F) (2 ^ w1) in pattern F d /\ finite F d /\ units F d = (-1) * U.
Proof.
  destruct one_val as (B & Fo & Uo). destruct (join_sign F W (bits_one F) (2 ^ w1) B (or_intror eq_refl)) as (P3 & X3 & _ & _ & U3).
  pose proof (pow2_pos w1 (w1_nonneg F W)) as PW. replace (2 ^ w1 =? 0) with false in U3 by (symmetry; apply Z.eqb_neq; lia).
  split; [exact P3|]. split; [unfold finite in *; rewrite X3; exact Fo|]. rewrite U3, Uo. ring.
Qed.

Lemma magic_floor_ok x : pattern F x -> finite F x -> Z.abs (units F x) <= (2 ^ P - k) * U ->
  exists r, is_integer F (magic_floor F K x) r /\ floor_of (units F x) U r.
Proof.
  intros Px Fx HX. destruct (magic_round_ok x Px Fx HX) as (r & Iy & [NE _] & _ & Br). unfold magic_floor. pose proof (unit1_pos F W) as UP.
  pose proof (pow_mw F W). destruct Iy as (Py & Fy & Uy). rewrite flt_val by auto. rewrite Uy. destruct (Z.ltb_spec (units F x) (r * U)) as [L|L].
  - exists (r + -1). destruct neg_one_val as (Pd & Fd & Ud). split; [apply add_one; auto; [repeat split; auto; apply Py|lia]|]. unfold floor_of. nia.
  - exists (r + 0). destruct zero_val as (Pd & Fd & Ud). split; [apply add_one; auto; [repeat split; auto; apply Py|lia]|]. unfold floor_of. nia.
Qed.

Lemma magic_ceil_ok x : pattern F x -> finite F x -> Z.abs (units F x) <= (2 ^ P - k) * U ->
  exists r, is_integer F (magic_ceil F K x) r /\ ceil_of (units F x) U r.
Proof.
  intros Px Fx HX. destruct (magic_round_ok x Px Fx HX) as (r & Iy & [NE _] & _ & Br). unfold magic_ceil. pose proof (unit1_pos F W) as UP.
  pose proof (pow_mw F W). destruct Iy as (Py & Fy & Uy). rewrite flt_val by auto. rewrite Uy. destruct (Z.ltb_spec (r * U) (units F x)) as [L|L].
  - exists (r + 1). destruct one_val as (Bd & Fd & Ud). assert (Pd : pattern F (bits_one F)) by (unfold pattern; rewrite (pow_w F W); lia).
    split; [apply add_one; auto; [repeat split; auto; apply Py|rewrite Ud; ring|lia]|]. unfold ceil_of. nia.
  - exists (r + 0). destruct zero_val as (Pd & Fd & Ud). split; [apply add_one; auto; [repeat split; auto; apply Py|lia]|]. unfold ceil_of. nia.
Qed.
End M.
