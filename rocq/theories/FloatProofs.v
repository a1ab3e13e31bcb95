(** Rounding in [SpecFloat], in whole numbers of units. *)
From Coq Require Import ZArith Lia Bool SpecFloat.
From Verif Require Import Bits FpProofs.
Local Open Scope Z_scope.

(** n / 2^k, rounded to nearest, ties to even *)
Definition rne (n k : Z) : Z :=
  let q := n / 2 ^ k in let r := n mod 2 ^ k in
  match 2 * r ?= 2 ^ k with Lt => q | Eq => if Z.even q then q else q + 1 | Gt => q + 1 end.

Definition rec_of (n k : Z) : shr_record :=
  match 2 * (n mod 2 ^ k) ?= 2 ^ k with
  | Lt => Build_shr_record (n / 2 ^ k) false (negb (n mod 2 ^ k =? 0))
  | Eq => Build_shr_record (n / 2 ^ k) true false
  | Gt => Build_shr_record (n / 2 ^ k) true true
  end.

Lemma shr_1_rec m r s : 0 <= m -> shr_1 (Build_shr_record m r s) = Build_shr_record (m / 2) (Z.odd m) (r || s).
Proof.
  intros H. destruct m as [|[p|p|]|p]; try lia; cbn [shr_1]; f_equal.
  - rewrite (Pos2Z.inj_xI p). lia.
  - rewrite (Pos2Z.inj_xO p). lia.
Qed.

Lemma rec_of_succ n k : 0 <= n -> 0 <= k -> shr_1 (rec_of n k) = rec_of n (k + 1).
Proof.
  intros Hn Hk. pose proof (pow2_pos k Hk) as P.
  assert (E2 : 2 ^ (k + 1) = 2 * 2 ^ k) by (rewrite Z.pow_add_r by lia; lia).
  assert (Eq : n / 2 ^ (k + 1) = n / 2 ^ k / 2) by (rewrite E2, Z.div_div by lia; f_equal; lia).
  assert (Em : n mod 2 ^ (k + 1) = 2 ^ k * ((n / 2 ^ k) mod 2) + n mod 2 ^ k).
  { rewrite E2, (Z.mul_comm 2), Z.rem_mul_r by lia. lia. }
  assert (Q : 0 <= n / 2 ^ k) by (apply Z.div_pos; lia).
  pose proof (Z.mod_pos_bound n (2 ^ k) P) as R.
  rewrite Zmod_odd in Em.
  unfold rec_of at 2. rewrite Eq, Em, E2.
  unfold rec_of. set (q := n / 2 ^ k) in *. set (r := n mod 2 ^ k) in *. set (p := 2 ^ k) in *. clearbody q r p. clear Eq Em E2.
  destruct (Z.compare_spec (2 * r) p) as [C|C|C]; rewrite shr_1_rec by exact Q; destruct (Z.odd q);
    destruct (Z.compare_spec (2 * (p * 1 + r)) (2 * p)); destruct (Z.compare_spec (2 * (p * 0 + r)) (2 * p)); try lia; f_equal; cbn;
    try reflexivity.
  all: try (destruct (Z.eqb_spec r 0); destruct (Z.eqb_spec (p * 1 + r) 0); destruct (Z.eqb_spec (p * 0 + r) 0); cbn; try reflexivity; lia).
Qed.

Lemma iter_rec n k : 0 <= n -> Nat.iter k shr_1 (Build_shr_record n false false) = rec_of n (Z.of_nat k).
Proof.
  intros Hn. induction k as [|k IH].
  - cbn [Nat.iter nat_rect]. unfold rec_of. change (2 ^ Z.of_nat 0) with 1. rewrite Z.mod_1_r, Z.div_1_r. reflexivity.
  - cbn [Nat.iter nat_rect]. change (shr_1 (Nat.iter k shr_1 (Build_shr_record n false false)) = rec_of n (Z.of_nat (S k))).
    rewrite IH, rec_of_succ by lia. f_equal. lia.
Qed.

Lemma shr_rec n e k : 0 <= n -> 0 <= k -> shr (Build_shr_record n false false) e k = (rec_of n k, e + k).
Proof.
  intros Hn Hk. destruct k as [|p|p]; try lia; cbn [shr].
  - unfold rec_of. change (2 ^ 0) with 1. rewrite Z.mod_1_r, Z.div_1_r, Z.add_0_r. reflexivity.
  - rewrite iter_pos_nat, iter_rec by lia. rewrite positive_nat_Z. reflexivity.
Qed.

Lemma round_rec n k : round_nearest_even (shr_m (rec_of n k)) (loc_of_shr_record (rec_of n k)) = rne n k.
Proof.
  unfold rec_of, rne. destruct (Z.compare_spec (2 * (n mod 2 ^ k)) (2 ^ k)); cbn [shr_m loc_of_shr_record round_nearest_even]; auto.
  destruct (n mod 2 ^ k =? 0); reflexivity.
Qed.

Lemma rne_bounds n k : 0 <= n -> 0 <= k -> n / 2 ^ k <= rne n k <= n / 2 ^ k + 1.
Proof. intros. unfold rne. destruct (_ ?= _); try destruct (Z.even _); lia. Qed.

Lemma rne_exact m k : 0 <= k -> rne (m * 2 ^ k) k = m.
Proof.
  intros Hk. pose proof (pow2_pos k Hk). unfold rne. rewrite Z.mod_mul, Z.div_mul by lia. destruct (Z.compare_spec (2 * 0) (2 ^ k)); lia.
Qed.

Lemma rne_scale n k j : 0 <= k -> 0 <= j -> rne (n * 2 ^ j) (k + j) = rne n k.
Proof.
  intros Hk Hj. pose proof (pow2_pos k Hk). pose proof (pow2_pos j Hj). unfold rne.
  rewrite Z.pow_add_r by lia. rewrite Z.div_mul_cancel_r, Z.mul_mod_distr_r by lia.
  replace (2 * (n mod 2 ^ k * 2 ^ j)) with (2 * (n mod 2 ^ k) * 2 ^ j) by ring.
  rewrite <- Zmult_compare_compat_r by lia. reflexivity.
Qed.

(** rne is the nearest *)
Lemma rne_near n k : 0 <= k -> 2 * Z.abs (n - rne n k * 2 ^ k) <= 2 ^ k /\ (2 * Z.abs (n - rne n k * 2 ^ k) = 2 ^ k -> Z.even (rne n k) = true).
Proof.
  intros Hk. pose proof (pow2_pos k Hk) as P. pose proof (Z.div_mod n (2 ^ k) ltac:(lia)) as D. pose proof (Z.mod_pos_bound n (2 ^ k) P) as R.
  unfold rne. set (q := n / 2 ^ k) in *. set (r := n mod 2 ^ k) in *. set (p := 2 ^ k) in *. clearbody q r p. subst n.
  destruct (Z.compare_spec (2 * r) p) as [C|C|C].
  - destruct (Z.even q) eqn:E.
    + replace (p * q + r - q * p) with r by ring. split; [lia|auto].
    + replace (p * q + r - (q + 1) * p) with (r - p) by ring. split; [lia|]. intros _. rewrite Z.even_add, E. reflexivity.
  - replace (p * q + r - q * p) with r by ring. split; lia.
  - replace (p * q + r - (q + 1) * p) with (r - p) by ring. split; lia.
Qed.

Section F.
Variables (prec emax : Z).
Hypothesis Hp : 1 < prec.
Hypothesis He : prec < emax.
Notation em := (emin prec emax).

(** [x] is a number with the value [N] units, in canonical form. *)
Definition val (x : spec_float) (N : Z) : Prop :=
  (exists s, x = S754_zero s /\ N = 0) \/
  exists s p t, x = S754_finite s p (em + t) /\ N = cond_Zopp s (Zpos p * 2 ^ t) /\ 0 <= t <= emax - prec - em /\
    Zpos p < 2 ^ prec /\ (t = 0 \/ 2 ^ (prec - 1) <= Zpos p).

Definition scale (N : Z) : Z := Z.max (Zdigits2 N - prec) 0.
Lemma emin_val : em = 3 - emax - prec. Proof. reflexivity. Qed.

Lemma fexp_scale m e : 0 < m -> em <= e -> fexp prec emax (Zdigits2 m + e) = em + scale (m * 2 ^ (e - em)).
Proof. intros Hm Hle. unfold fexp, scale. rewrite Zdigits2_mul by lia. lia. Qed.

Lemma digits_le m k : 0 < m -> 0 <= k -> (Zdigits2 m <= k <-> m < 2 ^ k).
Proof.
  intros Hm Hk. rewrite Zdigits2_log2 by lia. split; intros H.
  - apply Z.log2_lt_pow2; lia.
  - apply Z.log2_lt_pow2 in H; lia.
Qed.
Lemma digits_ge m k : 0 < m -> 0 <= k -> (k < Zdigits2 m <-> 2 ^ k <= m).
Proof. intros Hm Hk. pose proof (digits_le m k Hm Hk). lia. Qed.

(** A positive value, rounded. *)
Lemma round_val s m e : em <= e -> let N := Zpos m * 2 ^ (e - em) in
  rne N (scale N) * 2 ^ scale N < 2 ^ (emax - em) ->
  0 < rne N (scale N) ->
  val (binary_round prec emax s m e) (cond_Zopp s (rne N (scale N) * 2 ^ scale N)) /\
  exists p t, binary_round prec emax s m e = S754_finite s p t.
Proof.
  intros Hle N HB HP. pose proof (pow2_pos (e - em) ltac:(lia)) as P0.
  assert (HN : 0 < N) by (unfold N; nia).
  unfold binary_round. change (Zpos (digits2_pos m)) with (Zdigits2 (Zpos m)). rewrite fexp_scale by lia. fold N.
  assert (S0 : 0 <= scale N) by (unfold scale; lia).
  assert (A : exists mz ez, shl_align m e (em + scale N) = (mz, ez) /\ em <= ez <= em + scale N /\ Zpos mz * 2 ^ (ez - em) = N).
  { unfold shl_align. destruct (em + scale N - e) as [|d|d] eqn:Q.
    - exists m, e. repeat split; try lia. 
    - exists m, e. repeat split; try lia. 
    - exists (shift_pos d m), (em + scale N). split; [reflexivity|]. split; [lia|]. rewrite shift_pos_mul.
      rewrite <- Z.mul_assoc, <- Z.pow_add_r by lia. unfold N at 2. do 2 f_equal. lia. }
  destruct A as (mz & ez & -> & [L1 L2] & EN). unfold binary_round_aux, shr_fexp.
  cbn [shr_record_of_loc]. rewrite fexp_scale by lia. rewrite EN.
  rewrite shr_rec by lia. rewrite round_rec.
  assert (ER : rne (Zpos mz) (em + scale N - ez) = rne N (scale N)).
  { rewrite <- (rne_scale (Zpos mz) (em + scale N - ez) (ez - em)) by lia. rewrite EN. f_equal. lia. }
  rewrite ER. set (M := rne N (scale N)) in *.
  replace (ez + (em + scale N - ez)) with (em + scale N) by lia.
  (* size of the rounded mantissa *)
  assert (B1 : M <= 2 ^ prec).
  { pose proof (rne_bounds N (scale N) ltac:(lia) S0). enough (N / 2 ^ scale N < 2 ^ prec) by (unfold M; lia).
    apply Z.div_lt_upper_bound; [apply pow2_pos; lia|]. rewrite <- Z.pow_add_r by lia. apply digits_le; unfold scale in *; lia. }
  assert (B2 : scale N = 0 \/ 2 ^ (prec - 1) <= M).
  { destruct (Z.eq_dec (scale N) 0); [auto|right]. pose proof (rne_bounds N (scale N) ltac:(lia) S0).
    enough (2 ^ (prec - 1) <= N / 2 ^ scale N) by (unfold M; lia).
    apply Z.div_le_lower_bound; [apply pow2_pos; lia|]. rewrite <- Z.pow_add_r by lia. apply digits_ge; unfold scale in *; lia. }
  pose proof (pow2_pos (scale N) S0) as PS.
  assert (PP : 2 ^ prec = 2 * 2 ^ (prec - 1)) by (rewrite <- Z.pow_succ_r by lia; f_equal; lia).
  pose proof (pow2_pos (prec - 1) ltac:(lia)) as PP1.
  assert (BT : forall p t, 0 < p -> 0 <= t -> p * 2 ^ t = M * 2 ^ scale N -> (t = 0 \/ 2 ^ (prec - 1) <= p) -> t <= emax - prec - em).
  { intros p t Hpp Ht Eq [->|Hq]; [unfold emin; lia|].
    destruct (Z_le_gt_dec t (emax - prec - em)) as [L|L]; [exact L|exfalso].
    assert (2 ^ (emax - em) <= p * 2 ^ t); [|lia].
    replace (emax - em) with ((prec - 1) + (emax - prec - em + 1)) by lia. rewrite Z.pow_add_r by (unfold emin; lia).
    apply Z.mul_le_mono_nonneg; try (apply Z.pow_nonneg; lia); [exact Hq|apply Z.pow_le_mono_r; lia]. }
  rewrite fexp_scale by lia. replace (em + scale N - em) with (scale N) by lia.
  destruct (Z_lt_ge_dec M (2 ^ prec)) as [LM|GM].
  - assert (ES : scale (M * 2 ^ scale N) = scale N).
    { pose proof (proj2 (digits_le M prec HP ltac:(lia)) LM). unfold scale at 1. rewrite Zdigits2_mul by lia.
      destruct B2 as [E0|Hq]; [rewrite E0; lia|]. pose proof (proj2 (digits_ge M (prec - 1) HP ltac:(lia)) Hq). lia. }
    rewrite ES. replace (em + scale N - (em + scale N)) with 0 by lia. cbn [shr shr_m].
    destruct M as [|p|p] eqn:EM; try lia.
    assert (T : scale N <= emax - prec - em) by (apply (BT (Zpos p) (scale N)); auto; lia).
    assert (EB : (em + scale N <=? emax - prec) = true) by (apply Z.leb_le; lia). rewrite EB.
    split; [|eauto]. right. exists s, p, (scale N). repeat split; auto; lia.
  - assert (EM : M = 2 ^ prec) by lia.
    assert (ES : scale (M * 2 ^ scale N) = scale N + 1).
    { unfold scale at 1. rewrite Zdigits2_mul by lia. rewrite EM. rewrite <- (Z.mul_1_l (2 ^ prec)), Zdigits2_mul by lia. cbn [Zdigits2 digits2_pos]. lia. }
    rewrite ES. replace (em + (scale N + 1) - (em + scale N)) with 1 by lia.
    assert (EX : M = 2 ^ (prec - 1) * 2 ^ 1) by (change (2 ^ 1) with 2; lia).
    assert (SH : shr (Build_shr_record M false false) (em + scale N) 1 = (Build_shr_record (2 ^ (prec - 1)) false false, em + scale N + 1))
      by (rewrite EX; apply shr_exact; lia).
    rewrite SH. clear SH. cbn [shr_m].
    destruct (2 ^ (prec - 1)) as [|p|p] eqn:EP; try lia.
    assert (EQ : Zpos p * 2 ^ (scale N + 1) = M * 2 ^ scale N) by (rewrite Z.pow_add_r, EX by lia; ring).
    assert (T : scale N + 1 <= emax - prec - em) by (apply (BT (Zpos p) (scale N + 1)); auto; lia).
    assert (EB : (em + scale N + 1 <=? emax - prec) = true) by (apply Z.leb_le; lia). rewrite EB.
    split; [|eauto]. right. exists s, p, (scale N + 1). rewrite EQ. repeat split; try lia. f_equal. lia.
Qed.

(** The sum of two values, rounded. *)
Definition rounded (N : Z) : Z := cond_Zopp (N <? 0) (rne (Z.abs N) (scale (Z.abs N)) * 2 ^ scale (Z.abs N)).

Lemma scale_rne_pos N : 0 < N -> 0 < rne N (scale N).
Proof.
  intros HN. assert (S0 : 0 <= scale N) by (unfold scale; lia). pose proof (rne_bounds N (scale N) ltac:(lia) S0).
  enough (1 <= N / 2 ^ scale N) by lia. apply Z.div_le_lower_bound; [apply pow2_pos; lia|].
  destruct (Z.eq_dec (scale N) 0) as [E|E]; [rewrite E; cbn; lia|]. rewrite Z.mul_1_r. apply digits_ge; unfold scale in *; try lia.
Qed.

Lemma rounded_exact N m j : N = m * 2 ^ j -> 0 <= j -> Z.abs m < 2 ^ prec -> rounded N = N.
Proof.
  intros -> Hj Hm. unfold rounded. pose proof (pow2_pos j Hj).
  set (A := Z.abs (m * 2 ^ j)). assert (EA : A = Z.abs m * 2 ^ j) by (unfold A; rewrite Z.abs_mul, (Z.abs_eq (2 ^ j)) by lia; reflexivity).
  assert (EE : rne A (scale A) * 2 ^ scale A = A).
  { destruct (Z.eq_dec m 0) as [->|Hm0].
    - assert (A = 0) by (rewrite EA; cbn; lia). rewrite H0. unfold rne. rewrite Z.div_0_l, Zmod_0_l by (apply Z.pow_nonzero; unfold scale; lia).
      destruct (Z.compare_spec (2 * 0) (2 ^ scale 0)); cbn; lia.
    - assert (D : Zdigits2 (Z.abs m) <= prec) by (apply digits_le; lia).
      assert (SA : 0 <= scale A <= j) by (unfold scale; rewrite EA, Zdigits2_mul by lia; lia).
      assert (EB : A = Z.abs m * 2 ^ (j - scale A) * 2 ^ scale A) by (rewrite <- Z.mul_assoc, <- Z.pow_add_r by lia; rewrite EA at 1; f_equal; f_equal; lia).
      rewrite EB at 1. rewrite rne_exact by lia. symmetry. exact EB. }
  rewrite EE. unfold A. destruct (Z.ltb_spec (m * 2 ^ j) 0); cbn [cond_Zopp]; lia.
Qed.

Lemma normalize_val m e sz : em <= e -> let N := m * 2 ^ (e - em) in Z.abs (rounded N) < 2 ^ (emax - em) ->
  val (binary_normalize prec emax m e sz) (rounded N).
Proof.
  intros Hle N. pose proof (pow2_pos (e - em) ltac:(lia)) as P0.
  destruct m as [|p|p]; cbn [binary_normalize]; intros HB.
  - left. exists sz. split; [reflexivity|]. unfold N. rewrite Z.mul_0_l. apply (rounded_exact 0 0 0); cbn; try lia; apply pow2_pos; lia.
  - assert (HN : 0 < N) by (unfold N; nia).
    unfold rounded in *. rewrite (Z.abs_eq N) in * by lia. replace (N <? 0) with false in * by (symmetry; apply Z.ltb_ge; lia). cbn [cond_Zopp] in *.
    pose proof (scale_rne_pos N HN). pose proof (pow2_pos (scale N) ltac:(unfold scale; lia)).
    apply (round_val false p e Hle); fold N; [|exact H]. rewrite Z.abs_eq in HB by (apply Z.mul_nonneg_nonneg; lia). exact HB.
  - assert (HN : N < 0) by (unfold N; nia).
    assert (EA : Z.abs N = Zpos p * 2 ^ (e - em)) by (unfold N; rewrite Z.abs_mul, (Z.abs_eq (2 ^ _)) by lia; reflexivity).
    unfold rounded in *. rewrite EA in *. replace (N <? 0) with true in * by (symmetry; apply Z.ltb_lt; lia). cbn [cond_Zopp] in *.
    set (A := Zpos p * 2 ^ (e - em)) in *. assert (HA : 0 < A) by (unfold A; nia).
    pose proof (scale_rne_pos A HA). pose proof (pow2_pos (scale A) ltac:(unfold scale; lia)).
    rewrite Z.abs_opp, Z.abs_eq in HB by (apply Z.mul_nonneg_nonneg; lia).
    exact (proj1 (round_val true p e Hle HB H)).
Qed.

Lemma val_exact x N : val x N -> rounded N = N /\ Z.abs N < 2 ^ (emax - em).
Proof.
  intros [(s & -> & ->)|(s & p & t & -> & -> & Ht & Hq & Hc)].
  - split; [apply (rounded_exact 0 0 0); cbn; try lia; apply pow2_pos; lia|]. cbn. apply pow2_pos. unfold emin. lia.
  - split.
    + apply (rounded_exact _ (cond_Zopp s (Zpos p)) t); [destruct s; cbn [cond_Zopp]; ring|lia|destruct s; cbn; exact Hq].
    + assert (Z.abs (cond_Zopp s (Zpos p * 2 ^ t)) = Zpos p * 2 ^ t) as ->.
      { pose proof (pow2_pos t ltac:(lia)). destruct s; cbn [cond_Zopp]; rewrite ?Z.abs_opp; apply Z.abs_eq; nia. }
      replace (emax - em) with (prec + (emax - prec - em)) by lia. rewrite Z.pow_add_r by (unfold emin; lia).
      apply Z.le_lt_trans with (Zpos p * 2 ^ (emax - prec - em)).
      * apply Z.mul_le_mono_nonneg_l; [lia|]. apply Z.pow_le_mono_r; lia.
      * apply Z.mul_lt_mono_pos_r; [apply pow2_pos; unfold emin; lia|exact Hq].
Qed.

Lemma add_val x y N M : val x N -> val y M -> Z.abs (rounded (N + M)) < 2 ^ (emax - em) -> val (SFadd prec emax x y) (rounded (N + M)).
Proof.
  intros VX VY HB.
  destruct VX as [(s & -> & ->)|(s & p & t & -> & -> & Ht & Hq & Hc)].
  - destruct VY as [(s' & -> & ->)|(s' & p' & t' & -> & -> & Ht' & Hq' & Hc')].
    + cbn [SFadd]. left. replace (0 + 0) with 0 by lia. rewrite (rounded_exact 0 0 0) by (cbn; try lia; apply pow2_pos; lia). destruct (Bool.eqb s s'); eauto.
    + cbn [SFadd]. rewrite Z.add_0_l. assert (V : val (S754_finite s' p' (em + t')) (cond_Zopp s' (Zpos p' * 2 ^ t'))) by (right; exists s', p', t'; auto).
      rewrite (proj1 (val_exact _ _ V)). exact V.
  - destruct VY as [(s' & -> & ->)|(s' & p' & t' & -> & -> & Ht' & Hq' & Hc')].
    + cbn [SFadd]. rewrite Z.add_0_r. assert (V : val (S754_finite s p (em + t)) (cond_Zopp s (Zpos p * 2 ^ t))) by (right; exists s, p, t; auto).
      rewrite (proj1 (val_exact _ _ V)). exact V.
    + cbn [SFadd]. set (ez := Z.min (em + t) (em + t')).
      assert (AL : forall q u, ez <= em + u -> 0 <= u -> Zpos (fst (shl_align q (em + u) ez)) = Zpos q * 2 ^ (em + u - ez)).
      { intros q u Hu Hu0. unfold shl_align. destruct (ez - (em + u)) as [|d|d] eqn:Q; cbn [fst]; try lia.
        - replace (em + u - ez) with 0 by lia. cbn. lia.
        - rewrite shift_pos_mul. f_equal. f_equal. lia. }
      rewrite (AL p t), (AL p' t') by lia.
      set (m := cond_Zopp s (Zpos p * 2 ^ (em + t - ez)) + cond_Zopp s' (Zpos p' * 2 ^ (em + t' - ez))).
      assert (EN : cond_Zopp s (Zpos p * 2 ^ t) + cond_Zopp s' (Zpos p' * 2 ^ t') = m * 2 ^ (ez - em)).
      { unfold m. rewrite Z.mul_add_distr_r. f_equal.
        - replace t with ((em + t - ez) + (ez - em)) at 1 by lia. rewrite Z.pow_add_r by lia. destruct s; cbn [cond_Zopp]; ring.
        - replace t' with ((em + t' - ez) + (ez - em)) at 1 by lia. rewrite Z.pow_add_r by lia. destruct s'; cbn [cond_Zopp]; ring. }
      rewrite EN in HB |- *. apply normalize_val; [lia|exact HB].
Qed.

(** Exact cancellation gives the positive zero. *)
Lemma add_cancel x y N : val x N -> val y (- N) -> N <> 0 -> SFadd prec emax x y = S754_zero false.
Proof.
  intros VX VY HN.
  destruct VX as [(s & -> & ->)|(s & p & t & -> & EN1 & Ht & Hq & Hc)]; [lia|].
  destruct VY as [(s' & -> & EN2)|(s' & p' & t' & -> & EN2 & Ht' & Hq' & Hc')]; [lia|].
  cbn [SFadd]. set (ez := Z.min (em + t) (em + t')).
  assert (AL : forall q u, ez <= em + u -> 0 <= u -> Zpos (fst (shl_align q (em + u) ez)) = Zpos q * 2 ^ (em + u - ez)).
  { intros q u Hu Hu0. unfold shl_align. destruct (ez - (em + u)) as [|d|d] eqn:Q; cbn [fst]; try lia.
    - replace (em + u - ez) with 0 by lia. cbn. lia.
    - rewrite shift_pos_mul. f_equal. f_equal. lia. }
  rewrite (AL p t), (AL p' t') by lia.
  set (m := cond_Zopp s (Zpos p * 2 ^ (em + t - ez)) + cond_Zopp s' (Zpos p' * 2 ^ (em + t' - ez))).
  assert (EN : cond_Zopp s (Zpos p * 2 ^ t) + cond_Zopp s' (Zpos p' * 2 ^ t') = m * 2 ^ (ez - em)).
  { unfold m. rewrite Z.mul_add_distr_r. f_equal.
    - replace t with ((em + t - ez) + (ez - em)) at 1 by lia. rewrite Z.pow_add_r by lia. destruct s; cbn [cond_Zopp]; ring.
    - replace t' with ((em + t' - ez) + (ez - em)) at 1 by lia. rewrite Z.pow_add_r by lia. destruct s'; cbn [cond_Zopp]; ring. }
  rewrite <- EN1, <- EN2 in EN. replace (N + - N) with 0 in EN by lia. pose proof (pow2_pos (ez - em) ltac:(lia)).
  assert (M0 : m = 0) by nia. rewrite M0. reflexivity.
Qed.


(** Comparisons. *)
Lemma cmp_val x y N M : val x N -> val y M -> SFcompare x y = Some (N ?= M).
Proof.
  assert (LT : forall p t p' t', Zpos p < 2 ^ prec -> 0 <= t -> (t' = 0 \/ 2 ^ (prec - 1) <= Zpos p') -> t < t' -> Zpos p * 2 ^ t < Zpos p' * 2 ^ t').
  { intros p t p' t' H1 H2 [->|H3] H4; [lia|].
    assert (2 ^ prec = 2 * 2 ^ (prec - 1)) by (rewrite <- Z.pow_succ_r by lia; f_equal; lia).
    apply Z.lt_le_trans with (2 ^ prec * 2 ^ t); [apply Z.mul_lt_mono_pos_r; [apply pow2_pos; lia|lia]|].
    replace t' with (t + 1 + (t' - t - 1)) by lia. rewrite !Z.pow_add_r by lia. change (2 ^ 1) with 2.
    pose proof (pow2_pos (t' - t - 1) ltac:(lia)). pose proof (pow2_pos t H2). pose proof (pow2_pos (prec - 1) ltac:(lia)).
    apply Z.le_trans with (Zpos p' * (2 ^ t * 2)); [rewrite H; nia|]. apply Z.mul_le_mono_nonneg_l; nia. }
  assert (CMP : forall p t p' t', Zpos p < 2 ^ prec -> 0 <= t -> (t = 0 \/ 2 ^ (prec - 1) <= Zpos p) -> Zpos p' < 2 ^ prec -> 0 <= t' -> (t' = 0 \/ 2 ^ (prec - 1) <= Zpos p') ->
     match em + t ?= em + t' with Lt => Lt | Gt => Gt | Eq => Pcompare p p' Eq end = (Zpos p * 2 ^ t ?= Zpos p' * 2 ^ t')).
  { intros p t p' t' A1 A2 A3 B1 B2 B3. destruct (Z.compare_spec (em + t) (em + t')) as [E|E|E]; symmetry.
    - assert (t = t') by lia. subst. rewrite <- Zmult_compare_compat_r by (apply Z.lt_gt, pow2_pos; lia). reflexivity.
    - apply Z.compare_lt_iff. apply LT; auto; lia.
    - apply Z.compare_gt_iff. apply LT; auto; lia. }
  intros [(s & -> & ->)|(s & p & t & -> & -> & Ht & Hq & Hc)] [(s' & -> & ->)|(s' & p' & t' & -> & -> & Ht' & Hq' & Hc')]; cbn [SFcompare].
  - reflexivity.
  - pose proof (Z.mul_pos_pos (Zpos p') (2 ^ t') ltac:(lia) (pow2_pos t' ltac:(lia))). f_equal. destruct s'; cbn [cond_Zopp]; symmetry; [apply Z.compare_gt_iff|apply Z.compare_lt_iff]; lia.
  - pose proof (Z.mul_pos_pos (Zpos p) (2 ^ t) ltac:(lia) (pow2_pos t ltac:(lia))). f_equal. destruct s; cbn [cond_Zopp]; symmetry; [apply Z.compare_lt_iff|apply Z.compare_gt_iff]; lia.
  - pose proof (Z.mul_pos_pos (Zpos p) (2 ^ t) ltac:(lia) (pow2_pos t ltac:(lia))). pose proof (Z.mul_pos_pos (Zpos p') (2 ^ t') ltac:(lia) (pow2_pos t' ltac:(lia))). f_equal. destruct s, s'; cbn [cond_Zopp].
    + rewrite Z.compare_opp, <- CMP by (auto; lia).
      rewrite (Z.compare_antisym (em + t) (em + t')). change (Pos.compare_cont Eq p' p) with (Pos.compare p' p).
      change (Pos.compare_cont Eq p p') with (Pos.compare p p'). rewrite (Pos.compare_antisym p p').
      destruct (em + t ?= em + t'); reflexivity.
    + symmetry. apply Z.compare_lt_iff. lia.
    + symmetry. apply Z.compare_gt_iff. lia.
    + apply CMP; auto; lia.
Qed.
End F.
