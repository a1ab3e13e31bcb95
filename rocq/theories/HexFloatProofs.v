(** * Proofs about hexadecimal floating-point literals *)
From Coq Require Import ZArith Lia Bool Ascii String List SpecFloat.
From Verif Require Import Bits FpProofs TypesModel LexModel LexSpec LexProofs LexProofs2 HexFloatModel HexFloatSpec.
Import ListNotations.
Local Open Scope Z_scope.

(* x is N * 2^-1074 *)
Definition fin (x : spec_float) (N : Z) (p t : Z) : Prop :=
  x = S754_finite false (Z.to_pos p) (t - 1074) /\ 0 < p /\ 0 <= t <= 2045 /\ N = p * 2 ^ t /\ Zdigits2 p <= 53 /\ (t = 0 \/ Zdigits2 p = 53).
Definition isd (x : spec_float) (N : Z) : Prop := (x = S754_zero false /\ N = 0) \/ exists p t, fin x N p t.

Lemma canon a j : 0 < a < 2 ^ 53 -> 0 <= j -> a * 2 ^ j < 2 ^ 2098 ->
  exists p t, 0 < p /\ 0 <= t <= 2045 /\ a * 2 ^ j = p * 2 ^ t /\ Zdigits2 p <= 53 /\ (t = 0 \/ Zdigits2 p = 53).
Proof.
  intros Ha Hj L.
  assert (P : 0 < 2 ^ j) by (apply pow2_pos; lia).
  assert (LA : Z.log2 a <= 52) by (apply Z.log2_lt_pow2 in L; [|nia]; assert (Z.log2 a < 53) by (apply Z.log2_lt_pow2; lia); lia).
  assert (LL : Z.log2 a + j < 2098) by (rewrite Z.add_comm, <- Z.log2_mul_pow2 by lia; apply Z.log2_lt_pow2; nia).
  pose proof (Z.log2_nonneg a) as LN.
  destruct (Z.le_gt_cases (Z.log2 a + j) 52) as [C | C].
  - exists (a * 2 ^ j), 0. split; [nia|]. split; [lia|]. split; [lia|]. split; [|left; reflexivity].
    rewrite Zdigits2_log2 by nia. rewrite Z.log2_mul_pow2 by lia. lia.
  - set (k := 52 - Z.log2 a). exists (a * 2 ^ k), (j - k).
    assert (0 <= k <= j) by (unfold k; lia).
    assert (0 < 2 ^ k) by (apply pow2_pos; lia).
    split; [nia|]. split; [unfold k; lia|]. split.
    + rewrite <- Z.mul_assoc, <- Z.pow_add_r by lia. f_equal. f_equal. lia.
    + rewrite Zdigits2_log2 by nia. rewrite Z.log2_mul_pow2 by lia. unfold k. lia.
Qed.
Lemma fexp_canon p t : 0 <= t -> Zdigits2 p <= 53 -> (t = 0 \/ Zdigits2 p = 53) -> fexp 53 1024 (Zdigits2 p + (t - 1074)) = t - 1074.
Proof. intros. unfold fexp, emin. lia. Qed.

(** powers of two *)
Definition P2 (k : Z) : spec_float := S754_finite false (Z.to_pos (2 ^ 52)) (k - 52).
Lemma dig52 : Zdigits2 (2 ^ 52) = 53.
Proof. reflexivity. Qed.
Lemma isd_P2 k : -1022 <= k <= 1023 -> isd (P2 k) (2 ^ (k + 1074)).
Proof.
  intros H. right. exists (2 ^ 52), (k + 1022). unfold fin, P2. split; [f_equal; lia|]. split; [lia|]. split; [lia|].
  split; [rewrite <- Z.pow_add_r by lia; f_equal; lia|]. rewrite dig52. lia.
Qed.

Lemma ddiv_P2 a b : -1022 <= a - b <= 1023 -> ddiv (P2 a) (P2 b) = P2 (a - b).
Proof.
  intros H. unfold ddiv, P2, SFdiv, SFdiv_core_binary.
  change (Z.pos (Z.to_pos (2 ^ 52))) with (2 ^ 52). rewrite dig52.
  replace (53 + (a - 52) - (53 + (b - 52))) with (a - b) by lia. replace (a - 52 - (b - 52)) with (a - b) by lia.
  assert (F : fexp 53 1024 (a - b) = Z.max (a - b - 53) (-1074)) by (unfold fexp, emin; f_equal; lia). rewrite F.
  cbv zeta. set (e' := Z.min (Z.max (a - b - 53) (-1074)) (a - b)).
  assert (E' : e' = a - b - 53 \/ e' = a - b - 52 /\ a - b = -1022) by (unfold e'; lia). clearbody e'.
  destruct E' as [-> | [-> Z]].
  - replace (a - b - (a - b - 53)) with 53 by lia.
    change (Z.div_eucl (Z.shiftl (2 ^ 52) 53) (2 ^ 52)) with (2 ^ 53, 0). change (new_location (2 ^ 52) 0) with loc_Exact. cbv iota beta.
    change (xorb false false) with false.
    apply (round_aux_exact 53 1024 false (2 ^ 53) (a - b - 53) (2 ^ 52) (a - b - 52)); [lia | | lia | lia |].
    + rewrite dig52. unfold fexp, emin. lia.
    + replace (a - b - 52 - (a - b - 53)) with 1 by lia. reflexivity.
  - replace (a - b - (a - b - 52)) with 52 by lia.
    change (Z.div_eucl (Z.shiftl (2 ^ 52) 52) (2 ^ 52)) with (2 ^ 52, 0). change (new_location (2 ^ 52) 0) with loc_Exact. cbv iota beta.
    change (xorb false false) with false.
    apply (round_aux_exact 53 1024 false (2 ^ 52) (a - b - 52) (2 ^ 52) (a - b - 52)); [lia | | lia | lia |].
    + rewrite dig52. unfold fexp, emin. lia.
    + rewrite Z.sub_diag. reflexivity.
Qed.

(* multiplication by a power of two, when exact *)
Lemma dmul_P2 x N k R a j : isd x N -> -1022 <= k <= 1023 ->
  N * 2 ^ (k + 1074) = R * 2 ^ 1074 -> R = a * 2 ^ j -> 0 <= a < 2 ^ 53 -> 0 <= j -> R < 2 ^ 2098 -> isd (dmul x (P2 k)) R.
Proof.
  intros [[-> ->] | (p & t & -> & Hp & Ht & -> & D1 & D2)] Hk E -> Ha Hj L.
  - left. split; [reflexivity|]. pose proof (pow2_pos 1074 ltac:(lia)). nia.
  - right. assert (0 < 2 ^ j) by (apply pow2_pos; lia).
    assert (PE : 0 < p * 2 ^ t * 2 ^ (k + 1074)) by (pose proof (pow2_pos t ltac:(lia)); pose proof (pow2_pos (k + 1074) ltac:(lia)); nia).
    assert (0 < a) by (pose proof (pow2_pos 1074 ltac:(lia)); nia).
    destruct (canon a j ltac:(lia) Hj L) as (q & u & Hq & Hu & Eq & Q1 & Q2). exists q, u.
    split; [|split; [|split; [|split; [|split]]]]; auto.
    unfold dmul, P2, SFmul. change (xorb false false) with false.
    rewrite Pos2Z.inj_mul. rewrite Z2Pos.id by lia. change (Z.pos (Z.to_pos (2 ^ 52))) with (2 ^ 52).
    rewrite Eq in E.
    assert (E2 : p * 2 ^ 52 * 2 ^ (t + k + 1022) = q * 2 ^ (u + 1074)).
    { rewrite (Z.pow_add_r 2 u 1074) by lia. rewrite Z.mul_assoc, <- E. rewrite <- !Z.mul_assoc, <- !Z.pow_add_r by lia. f_equal. f_equal. lia. }
    assert (DD : Zdigits2 (p * 2 ^ 52) = Zdigits2 p + 52) by (apply Zdigits2_mul; lia).
    assert (D0 : 1 <= Zdigits2 p) by (rewrite Zdigits2_log2 by lia; pose proof (Z.log2_nonneg p); lia).
    assert (DE : Zdigits2 p + 52 + (t + k + 1022) = Zdigits2 q + (u + 1074)).
    { rewrite <- DD, <- !Zdigits2_mul by lia. now rewrite E2. }
    assert (LE : t + k + 1022 <= u + 1074) by lia.
    apply (round_aux_exact 53 1024 false (p * 2 ^ 52) (t - 1074 + (k - 52)) q (u - 1074)); [lia | apply fexp_canon; auto; lia | lia | lia |].
    assert (C : p * 2 ^ 52 * 2 ^ (t + k + 1022) = q * 2 ^ (u - 1074 - (t - 1074 + (k - 52))) * 2 ^ (t + k + 1022)).
    { rewrite E2. rewrite <- !Z.mul_assoc, <- !Z.pow_add_r by lia. f_equal. f_equal. lia. }
    apply Z.mul_reg_r in C; [assumption|]. pose proof (pow2_pos (t + k + 1022) ltac:(lia)). lia.
Qed.
Lemma dmul_comm_P2 k x N : isd x N -> dmul (P2 k) x = dmul x (P2 k).
Proof.
  intros [[-> _] | (p & t & -> & _)]; [reflexivity|]. unfold dmul, P2, SFmul. change (xorb false false) with false.
  rewrite Pos.mul_comm, Z.add_comm. reflexivity.
Qed.

Lemma of_int_pos d : 0 < d < 2 ^ 53 -> exists p t, fin (of_int d) (d * 2 ^ 1074) p t.
Proof.
  intros H. destruct (canon d 1074 H ltac:(lia)) as (p & t & Hp & Ht & E & D1 & D2).
  { apply Z.lt_le_trans with (2 ^ 53 * 2 ^ 1074); [pose proof (pow2_pos 1074 ltac:(lia)); nia|]. rewrite <- Z.pow_add_r by lia. apply Z.pow_le_mono_r; lia. }
  exists p, t. split; [|auto 10]. unfold of_int, binary_normalize. destruct d as [|d|d]; try lia.
  apply round_exact; [lia | apply fexp_canon; auto; lia | lia |].
  destruct (Z.le_gt_cases 0 (t - 1074)).
  - left. split; [lia|]. replace (t - 1074 - 0) with (t - 1074) by lia.
    apply (Z.mul_reg_r _ _ (2 ^ 1074)); [lia|]. rewrite E, <- Z.mul_assoc, <- Z.pow_add_r by lia. f_equal. f_equal. lia.
  - right. split; [lia|]. replace (0 - (t - 1074)) with (1074 - t) by lia.
    apply (Z.mul_reg_r _ _ (2 ^ t)); [pose proof (pow2_pos t ltac:(lia)); lia|]. rewrite <- E, <- Z.mul_assoc, <- Z.pow_add_r by lia. f_equal. f_equal. lia.
Qed.
Lemma of_int_isd d : 0 <= d < 2 ^ 53 -> isd (of_int d) (d * 2 ^ 1074).
Proof.
  intros H. destruct (Z.eq_dec d 0) as [-> | N]; [left; split; reflexivity|]. right. apply of_int_pos. lia.
Qed.

Lemma dadd_isd x N y M a j : isd x N -> isd y M -> N + M = a * 2 ^ j -> 0 <= a < 2 ^ 53 -> 0 <= j -> N + M < 2 ^ 2098 -> isd (dadd x y) (N + M).
Proof.
  intros X Y E Ha Hj L.
  destruct X as [[-> ->] | (p & t & -> & Hp & Ht & -> & D1 & D2)].
  { rewrite Z.add_0_l. destruct Y as [[-> ->] | (q & u & -> & Y)]; [left; split; reflexivity|]. right. exists q, u. split; [reflexivity | exact Y]. }
  destruct Y as [[-> ->] | (q & u & -> & Hq & Hu & -> & F1 & F2)].
  { rewrite Z.add_0_r. right. exists p, t. repeat split; auto; lia. }
  right. rewrite E in *.
  pose proof (pow2_pos t ltac:(lia)). pose proof (pow2_pos u ltac:(lia)). assert (0 < 2 ^ j) by (apply pow2_pos; lia).
  assert (0 < a) by nia.
  destruct (canon a j ltac:(lia) Hj L) as (r & w & Hr & Hw & Eq & Q1 & Q2). exists r, w.
  split; [|auto 10].
  unfold dadd, SFadd. cbn [cond_Zopp].
  set (ez := Z.min (t - 1074) (u - 1074)).
  assert (SH : forall m e, 0 < m -> ez <= e - 1074 -> Z.pos (fst (shl_align (Z.to_pos m) (e - 1074) ez)) = m * 2 ^ (e - 1074 - ez)).
  { intros m e Hm He. unfold shl_align. destruct (ez - (e - 1074)) as [|d|d] eqn:Q; cbn [fst]; try lia.
    - replace (e - 1074 - ez) with 0 by lia. rewrite Z2Pos.id by lia. lia.
    - rewrite shift_pos_mul, Z2Pos.id by lia. f_equal. f_equal. lia. }
  rewrite !SH by (auto; unfold ez; lia).
  assert (SE : (p * 2 ^ (t - 1074 - ez) + q * 2 ^ (u - 1074 - ez)) * 2 ^ (ez + 1074) = r * 2 ^ w).
  { rewrite Z.mul_add_distr_r, <- !Z.mul_assoc, <- !Z.pow_add_r by (unfold ez; lia). rewrite <- Eq, <- E. f_equal; f_equal; f_equal; lia. }
  set (s := p * 2 ^ (t - 1074 - ez) + q * 2 ^ (u - 1074 - ez)) in *.
  assert (0 < s).
  { unfold s. pose proof (pow2_pos (t - 1074 - ez) ltac:(unfold ez; lia)). pose proof (pow2_pos (u - 1074 - ez) ltac:(unfold ez; lia)). nia. }
  clearbody s. unfold binary_normalize. destruct s as [|s|s]; try lia.
  assert (0 <= ez + 1074) by (unfold ez; lia). pose proof (pow2_pos (ez + 1074) ltac:(lia)). pose proof (pow2_pos w ltac:(lia)).
  apply round_exact; [lia | apply fexp_canon; auto; lia | lia |].
  destruct (Z.le_gt_cases ez (w - 1074)).
  - left. split; [lia|]. apply (Z.mul_reg_r _ _ (2 ^ (ez + 1074))); [lia|]. rewrite SE, <- Z.mul_assoc, <- Z.pow_add_r by lia. f_equal. f_equal. lia.
  - right. split; [lia|]. apply (Z.mul_reg_r _ _ (2 ^ w)); [lia|]. rewrite <- SE, <- Z.mul_assoc, <- Z.pow_add_r by lia. f_equal. f_equal. lia.
Qed.

(** ipow2 *)
Lemma dmul_P2_P2 a b : -1022 <= a <= 1023 -> -1022 <= b <= 1023 -> -1022 <= a + b <= 1023 -> dmul (P2 a) (P2 b) = P2 (a + b).
Proof.
  intros A B C. unfold dmul, P2, SFmul. change (xorb false false) with false. rewrite Pos2Z.inj_mul.
  change (Z.pos (Z.to_pos (2 ^ 52))) with (2 ^ 52). rewrite <- Z.pow_add_r by lia.
  apply (round_aux_exact 53 1024 false (2 ^ (52 + 52)) (a - 52 + (b - 52)) (2 ^ 52) (a + b - 52)); [lia | | lia | lia |].
  - rewrite dig52. unfold fexp, emin. lia.
  - replace (a + b - 52 - (a - 52 + (b - 52))) with 52 by lia. reflexivity.
Qed.
Lemma ipow2_loop_spec fuel : forall e k, 0 <= e <= Z.of_nat fuel -> 0 <= k -> k + e <= 1023 -> ipow2_loop fuel (P2 k) e = P2 (k + e).
Proof.
  induction fuel as [|fuel IH]; intros e k E K L; cbn [ipow2_loop]; [replace e with 0 by lia; now rewrite Z.add_0_r|].
  destruct (Z.ltb_spec 16 e).
  - change (of_int 65536) with (P2 16). rewrite dmul_P2_P2 by lia. rewrite IH by lia. f_equal. lia.
  - destruct (Z.ltb_spec 0 e); [|f_equal; lia].
    change (of_int 2) with (P2 1). rewrite dmul_P2_P2 by lia. rewrite IH by lia. f_equal. lia.
Qed.
Lemma ipow2_spec e : -1022 <= e <= 1023 -> ipow2 e = P2 e.
Proof.
  intros H. unfold ipow2, ipow2_pos. change (of_int 1) with (P2 0).
  destruct (Z.ltb_spec e 0).
  - rewrite ipow2_loop_spec by lia. rewrite ddiv_P2 by lia. f_equal. lia.
  - rewrite ipow2_loop_spec by lia. f_equal.
Qed.

(** the fraction *)
Lemma hex_not_p c d : digit c d -> char_in "pP" c = false.
Proof. intros [H | H]; do 16 (destruct d as [|d]; [injection H as <-; reflexivity|]); destruct d; discriminate H. Qed.
Lemma digit_lt16 c d : digit c d -> (d < 16)%nat.
Proof. intros [H | H]; do 16 (destruct d as [|d]; [lia|]); destruct d; discriminate H. Qed.

Lemma fraction_spec ds : forall i M V x p r, Forall (fun c => exists d, digit c d /\ Z.of_nat d < 16) ds ->
  (p = "p" \/ p = "P")%char -> 0 <= i -> i + Z.of_nat (length ds) <= 13 -> 0 <= M < 2 * 16 ^ i ->
  isd x (M * 2 ^ (1074 - 4 * i)) -> run_digits 16 M ds = (V, []) ->
  exists y, fraction x (P2 (- 4 * (i + 1))) (ds ++ p :: r) = Some (y, p :: r) /\
    isd y (V * 2 ^ (1074 - 4 * (i + Z.of_nat (length ds)))) /\ 0 <= V < 2 * 16 ^ (i + Z.of_nat (length ds)).
Proof.
  induction ds as [|c ds IH]; intros i M V x p r F Hp Hi Hl HM X R.
  - exists x. cbn [app fraction length]. replace (char_in "pP" p) with true by (destruct Hp as [-> | ->]; reflexivity).
    cbn in R. injection R as <-. rewrite Z.add_0_r. auto.
  - inversion F as [|? ? (d & D & Ld) F']; subst. cbn [app fraction]. rewrite (hex_not_p _ _ D), (digit_val_spec _ _ D).
    cbn [run_digits] in R. rewrite (digit_val_spec _ _ D) in R. apply Z.ltb_lt in Ld as Ld'. rewrite Ld' in R.
    cbn [length] in *. rewrite Nat2Z.inj_succ in *.
    change (of_int 16) with (P2 4). rewrite ddiv_P2 by lia.
    assert (PW : 0 < 16 ^ i) by (apply Z.pow_pos_nonneg; lia).
    assert (S16 : 16 ^ (i + 1) = 16 * 16 ^ i) by (rewrite Z.pow_add_r by lia; lia).
    assert (B53 : 2 * 16 ^ (i + 1) <= 2 ^ 53).
    { change 16 with (2 ^ 4). rewrite <- Z.pow_mul_r by lia. change 2 with (2 ^ 1) at 1. rewrite <- Z.pow_add_r by lia. apply Z.pow_le_mono_r; lia. }
    assert (DI : isd (dmul (P2 (-4 * (i + 1))) (of_int (Z.of_nat d))) (Z.of_nat d * 2 ^ (1074 - 4 * (i + 1)))).
    { pose proof (of_int_isd (Z.of_nat d) ltac:(lia)) as OI. rewrite (dmul_comm_P2 _ _ _ OI).
      apply (dmul_P2 _ _ _ _ (Z.of_nat d) (1074 - 4 * (i + 1)) OI); try lia.
      - rewrite <- !Z.mul_assoc, <- !Z.pow_add_r by lia. f_equal. f_equal. lia.
      - apply Z.lt_le_trans with (2 ^ 53 * 2 ^ (1074 - 4 * (i + 1))); [pose proof (pow2_pos (1074 - 4 * (i + 1)) ltac:(lia)); nia|].
        rewrite <- Z.pow_add_r by lia. apply Z.pow_le_mono_r; lia. }
    assert (SUM : M * 2 ^ (1074 - 4 * i) + Z.of_nat d * 2 ^ (1074 - 4 * (i + 1)) = (M * 16 + Z.of_nat d) * 2 ^ (1074 - 4 * (i + 1))).
    { replace (1074 - 4 * i) with (4 + (1074 - 4 * (i + 1))) by lia. rewrite Z.pow_add_r by lia. lia. }
    assert (DA : isd (dadd x (dmul (P2 (-4 * (i + 1))) (of_int (Z.of_nat d)))) ((M * 16 + Z.of_nat d) * 2 ^ (1074 - 4 * (i + 1)))).
    { rewrite <- SUM. apply (dadd_isd _ _ _ _ (M * 16 + Z.of_nat d) (1074 - 4 * (i + 1)) X DI SUM); try lia.
      rewrite SUM. apply Z.lt_le_trans with (2 ^ 53 * 2 ^ (1074 - 4 * (i + 1))); [pose proof (pow2_pos (1074 - 4 * (i + 1)) ltac:(lia)); nia|].
      rewrite <- Z.pow_add_r by lia. apply Z.pow_le_mono_r; lia. }
    replace (-4 * (i + 1) - 4) with (-4 * (i + 1 + 1)) by lia.
    destruct (IH (i + 1) (M * 16 + Z.of_nat d) V _ p r F' Hp ltac:(lia) ltac:(lia) ltac:(lia) DA R) as (y & Y1 & Y2 & Y3).
    exists y. rewrite Y1. replace (i + Z.succ (Z.of_nat (length ds))) with (i + 1 + Z.of_nat (length ds)) by lia. auto.
Qed.

(** the exponent *)
Lemma exponent_spec s e rest : exponent_part s e -> ends_here rest -> -1023 <= e <= 1023 -> strtol10 (s ++ rest) = Some e.
Proof.
  intros (ds & v & D & S) E B. apply no_digit_spec in E.
  destruct (denotes_cons_nonempty _ _ _ D) as (c & r & d & Ec & Dc & Lc).
  assert (Dg : is_digit_of 10 c = true) by (unfold is_digit_of; rewrite (digit_val_spec _ _ Dc); apply Z.ltb_lt; lia).
  assert (V : 0 <= v) by (eapply denotes_nonneg; [|exact D]; lia).
  assert (C1 : Ascii.eqb c "-" = false /\ Ascii.eqb c "+" = false).
  { split; (destruct (Ascii.eqb_spec c "-"), (Ascii.eqb_spec c "+"); subst; try reflexivity; discriminate Dg). }
  assert (R : fst (run_digits 10 0 (ds ++ rest)) = v) by (rewrite (run_denotes _ _ _ _ D E); reflexivity).
  unfold strtol10. cbv zeta.
  destruct S as [[[-> | ->] ->] | [-> ->]].
  - rewrite Ec in *. cbn [app] in *. destruct C1 as [-> ->]. rewrite Dg, R. cbn [option_map]. f_equal. rewrite Z.min_l, Z.max_r by lia. apply wraps_id; [lia|].
    unfold in_s. change (2 ^ (32 - 1)) with 2147483648. lia.
  - cbn [app]. change (Ascii.eqb "+" "-") with false. change (Ascii.eqb "+" "+") with true. cbv iota.
    rewrite Ec in *. cbn [app] in *. rewrite Dg, R. cbn [option_map]. f_equal. rewrite Z.min_l, Z.max_r by lia. apply wraps_id; [lia|].
    unfold in_s. change (2 ^ (32 - 1)) with 2147483648. lia.
  - cbn [app]. change (Ascii.eqb "-" "-") with true. cbv iota.
    rewrite Ec in *. cbn [app] in *. rewrite Dg, R. cbn [option_map]. f_equal. rewrite Z.min_l, Z.max_r by lia. apply wraps_id; [lia|].
    unfold in_s. change (2 ^ (32 - 1)) with 2147483648. lia.
Qed.

Lemma isd_exactly x N m e : isd x N -> -1074 <= e -> N = m * 2 ^ (e + 1074) -> is_exactly x m e.
Proof.
  intros [[-> ->] | (p & t & -> & Hp & Ht & -> & D1 & D2)] He E.
  - cbn. pose proof (pow2_pos (e + 1074) ltac:(lia)). nia.
  - cbn [is_exactly]. rewrite Z2Pos.id by lia. split.
    + unfold valid_binary, bounded, canonical_mantissa. apply andb_true_intro. split; [|apply Z.leb_le; lia].
      apply Zeq_is_eq_bool. change (Z.pos (digits2_pos (Z.to_pos p))) with (Zdigits2 (Z.pos (Z.to_pos p))). rewrite Z2Pos.id by lia.
      apply fexp_canon; auto; lia.
    + set (k := Z.min (t - 1074) e). assert (0 <= k + 1074) by (unfold k; lia).
      apply (Z.mul_reg_r _ _ (2 ^ (k + 1074))); [pose proof (pow2_pos (k + 1074) ltac:(lia)); lia|].
      rewrite <- !Z.mul_assoc, <- !Z.pow_add_r by (unfold k; lia).
      replace (t - 1074 - k + (k + 1074)) with t by lia. rewrite E. f_equal. f_equal. lia.
Qed.

Lemma hex_float_spec c l frac n f p s e rest : leading c l -> fraction_part frac n f -> (p = "p" \/ p = "P")%char -> exponent_part s e ->
  ends_here rest -> (n <= 13)%nat -> -1022 <= e <= 1023 ->
  exists x, lParseHexFloat (c :: frac ++ p :: s ++ rest) = Some x /\ is_exactly x (l * 16 ^ Z.of_nat n + f) (e - 4 * Z.of_nat n).
Proof.
  intros Hc Hf Hp Hs Hr Hn He.
  assert (LC : char_in "01" c = true /\ (if Ascii.eqb c "1" then 1 else 0) = l /\ 0 <= l <= 1).
  { destruct Hc as [[-> ->] | [-> ->]]; repeat split; lia. }
  destruct LC as (L1 & L2 & L3). cbn [lParseHexFloat]. rewrite L1, L2.
  assert (PP : char_in "pP" p = true) by (destruct Hp as [-> | ->]; reflexivity).
  assert (X0 : isd (of_int l) (l * 2 ^ (1074 - 4 * 0))) by (apply of_int_isd; lia).
  assert (ex : exists x, (match frac ++ p :: s ++ rest with
      | "."%char :: r => fraction (of_int l) (ddiv (of_int 1) (of_int 16)) r
      | _ => Some (of_int l, frac ++ p :: s ++ rest) end) = Some (x, p :: s ++ rest) /\
      isd x ((l * 16 ^ Z.of_nat n + f) * 2 ^ (1074 - 4 * Z.of_nat n)) /\ 0 <= l * 16 ^ Z.of_nat n + f < 2 * 16 ^ Z.of_nat n).
  { change (ddiv (of_int 1) (of_int 16)) with (P2 (-4 * (0 + 1))).
    destruct Hf as [([-> | ->] & -> & ->) | (ds & -> & -> & D)].
    - exists (of_int l). cbn [app]. split; [destruct Hp as [-> | ->]; reflexivity|]. change (Z.of_nat 0) with 0.
      rewrite Z.pow_0_r, Z.mul_1_r, Z.add_0_r. split; [exact X0 | lia].
    - destruct (fraction_spec [] 0 l l (of_int l) p (s ++ rest) (Forall_nil _) Hp ltac:(lia) ltac:(cbn; lia) ltac:(lia) X0 eq_refl) as (y & Y1 & Y2 & Y3).
      exists y. split; [exact Y1|]. change (Z.of_nat 0) with 0 in *. cbn [List.length] in *. change (Z.of_nat 0) with 0 in *.
      rewrite Z.pow_0_r, Z.mul_1_r, Z.add_0_r. split; [exact Y2 | lia].
    - assert (RD : run_digits 16 l ds = (l * 16 ^ Z.of_nat (length ds) + f, [])).
      { rewrite <- (app_nil_r ds) at 1. rewrite (run_app _ _ _ D). reflexivity. }
      destruct (fraction_spec ds 0 l _ (of_int l) p (s ++ rest) (denotes_forall _ _ _ D) Hp ltac:(lia) ltac:(lia) ltac:(lia) X0 RD) as (y & Y1 & Y2 & Y3).
      exists y. split; [exact Y1|]. rewrite Z.add_0_l in *. auto. }
  destruct ex as (x & -> & X & B). rewrite PP. rewrite (exponent_spec _ _ _ Hs Hr) by lia. cbn [option_map].
  exists (dmul x (ipow2 e)). split; [reflexivity|]. rewrite ipow2_spec by lia.
  set (m := l * 16 ^ Z.of_nat n + f) in *. set (k := Z.of_nat n) in *.
  assert (B53 : 2 * 16 ^ k <= 2 ^ 53).
  { change 16 with (2 ^ 4). rewrite <- Z.pow_mul_r by (unfold k; lia). change 2 with (2 ^ 1) at 1. rewrite <- Z.pow_add_r by (unfold k; lia). apply Z.pow_le_mono_r; unfold k; lia. }
  assert (B2 : 2 * 16 ^ k = 2 ^ (4 * k + 1)) by (change 16 with (2 ^ 4); rewrite <- Z.pow_mul_r, Z.pow_add_r by (unfold k; lia); lia).
  assert (0 <= k <= 13) by (unfold k; lia).
  apply (isd_exactly _ (m * 2 ^ (e - 4 * k + 1074))); [|lia | reflexivity].
  apply (dmul_P2 _ _ _ _ m (e - 4 * k + 1074) X); try lia.
  - rewrite <- !Z.mul_assoc, <- !Z.pow_add_r by lia. f_equal. f_equal. lia.
  - apply Z.lt_le_trans with (2 ^ (4 * k + 1) * 2 ^ (e - 4 * k + 1074)); [pose proof (pow2_pos (e - 4 * k + 1074) ltac:(lia)); nia|].
    rewrite <- Z.pow_add_r by lia. apply Z.pow_le_mono_r; lia.
Qed.
