(** Exactness of the [SpecFloat] operations. *)
From Coq Require Import ZArith SpecFloat Lia Bool.
From Verif Require Import Bits FpModel.
Local Open Scope Z_scope.

Lemma digits2_log2 p : Zpos (digits2_pos p) = Z.log2 (Zpos p) + 1.
Proof.
  induction p as [p IH|p IH|]; cbn [digits2_pos]; [| |reflexivity].
  - rewrite Pos2Z.inj_succ, IH. rewrite (Pos2Z.inj_xI p).
    rewrite Z.log2_succ_double by lia. lia.
  - rewrite Pos2Z.inj_succ, IH. rewrite (Pos2Z.inj_xO p). rewrite Z.log2_double by lia. lia.
Qed.

Lemma Zdigits2_log2 m : 0 < m -> Zdigits2 m = Z.log2 m + 1.
Proof. destruct m as [|p|p]; intros; try lia. apply digits2_log2. Qed.

Lemma Zdigits2_mul m k : 0 < m -> 0 <= k -> Zdigits2 (m * 2 ^ k) = Zdigits2 m + k.
Proof.
  intros Hm Hk. pose proof (pow2_pos k Hk). rewrite !Zdigits2_log2 by nia.
  rewrite Z.log2_mul_pow2 by lia. lia.
Qed.

Lemma iter_plus {A} (f : A -> A) n m (y : A) : Nat.iter n f (Nat.iter m f y) = Nat.iter (n + m) f y.
Proof. induction n as [|n IH]; [reflexivity|]. cbn. f_equal. exact IH. Qed.

Lemma iter_S {A} (f : A -> A) n (y : A) : Nat.iter (S n) f y = Nat.iter n f (f y).
Proof. change (f y) with (Nat.iter 1 f y). rewrite iter_plus. f_equal. lia. Qed.

Lemma iter_pos_nat {A} (f : A -> A) p x : iter_pos f p x = Nat.iter (Pos.to_nat p) f x.
Proof.
  revert x. induction p as [p IH|p IH|]; intros x; cbn [iter_pos].
  - rewrite !IH. rewrite Pos2Nat.inj_xI.
    pose proof (iter_plus f) as E.
    rewrite E. change (f x) with (Nat.iter 1 f x). rewrite E. f_equal. lia.
  - rewrite !IH. rewrite Pos2Nat.inj_xO.
    pose proof (iter_plus f) as E.
    rewrite E. f_equal. lia.
  - reflexivity.
Qed.

Lemma shr_1_even m : shr_1 (Build_shr_record (2 * m) false false) = Build_shr_record m false false.
Proof. destruct m; reflexivity. Qed.

Lemma shr_1_m r : 0 <= shr_m r -> shr_m (shr_1 r) = shr_m r / 2.
Proof.
  destruct r as [m r s]. cbn [shr_m]. intros H.
  destruct m as [|[p|p|]|p]; try lia; cbn [shr_1 shr_m]; try reflexivity.
  - rewrite (Pos2Z.inj_xI p). lia.
  - rewrite (Pos2Z.inj_xO p). lia.
Qed.

Lemma iter_shr_exact n m : Nat.iter n shr_1 (Build_shr_record (m * 2 ^ Z.of_nat n) false false)
  = Build_shr_record m false false.
Proof.
  induction n as [|n IH].
  - change (2 ^ Z.of_nat 0) with 1. rewrite Z.mul_1_r. reflexivity.
  - rewrite iter_S. replace (m * 2 ^ Z.of_nat (S n)) with (2 * (m * 2 ^ Z.of_nat n)).
    + rewrite shr_1_even. apply IH.
    + rewrite Nat2Z.inj_succ, Z.pow_succ_r by lia. ring.
Qed.

Lemma iter_shr_m n r : 0 <= shr_m r -> shr_m (Nat.iter n shr_1 r) = shr_m r / 2 ^ Z.of_nat n /\ 0 <= shr_m (Nat.iter n shr_1 r).
Proof.
  intros H. induction n as [|n [IH P]].
  - cbn. rewrite Z.div_1_r. auto.
  - cbn [Nat.iter nat_rect]. rewrite shr_1_m by exact P.
    change (nat_rect (fun _ : nat => shr_record) r (fun _ => shr_1) n) with (Nat.iter n shr_1 r).
    rewrite IH. rewrite Nat2Z.inj_succ, Z.pow_succ_r by lia.
    rewrite Z.div_div by (try (apply pow2_pos); lia). split; [f_equal; ring|].
    apply Z.div_pos; [exact H|]. pose proof (pow2_pos (Z.of_nat n)). lia.
Qed.

Lemma shr_exact m e k : 0 <= k -> shr (Build_shr_record (m * 2 ^ k) false false) e k = (Build_shr_record m false false, e + k).
Proof.
  intros Hk. destruct k as [|p|p]; try lia; cbn [shr].
  - change (2 ^ 0) with 1. rewrite Z.mul_1_r, Z.add_0_r. reflexivity.
  - rewrite iter_pos_nat. f_equal. pose proof (iter_shr_exact (Pos.to_nat p) m) as E. rewrite positive_nat_Z in E. exact E.
Qed.

Section FP.
Variables (prec emax : Z).

Lemma round_aux_exact s m e m' e' : 0 < m' -> fexp prec emax (Zdigits2 m' + e') = e' -> e' <= emax - prec ->
  e <= e' -> m = m' * 2 ^ (e' - e) ->
  binary_round_aux prec emax s m e loc_Exact = S754_finite s (Z.to_pos m') e'.
Proof.
  intros Hm C B Le ->. unfold binary_round_aux, shr_fexp.
  rewrite Zdigits2_mul by lia.
  replace (Zdigits2 m' + (e' - e) + e) with (Zdigits2 m' + e') by lia. rewrite C.
  cbn [shr_record_of_loc]. rewrite shr_exact by lia. replace (e + (e' - e)) with e' by lia.
  cbn [loc_of_shr_record shr_m round_nearest_even shr_record_of_loc]. rewrite C, Z.sub_diag.
  cbn [shr shr_m]. destruct m' as [|p|p]; try lia.
  apply Zle_imp_le_bool in B. rewrite B. reflexivity.
Qed.

Lemma shift_pos_mul d m : Zpos (shift_pos d m) = Zpos m * 2 ^ Zpos d.
Proof. rewrite shift_pos_correct. rewrite Zpower_pos_nat, Zpower_nat_Z, positive_nat_Z. ring. Qed.

Lemma round_exact s m e m' e' : 0 < m' -> fexp prec emax (Zdigits2 m' + e') = e' -> e' <= emax - prec ->
  (e <= e' /\ Zpos m = m' * 2 ^ (e' - e)) \/ (e' <= e /\ m' = Zpos m * 2 ^ (e - e')) ->
  binary_round prec emax s m e = S754_finite s (Z.to_pos m') e'.
Proof.
  intros Hm C B D. unfold binary_round.
  assert (Ed : Zpos (digits2_pos m) + e = Zdigits2 m' + e').
  { destruct D as [[L E]|[L E]].
    - change (Zpos (digits2_pos m)) with (Zdigits2 (Zpos m)). rewrite E, Zdigits2_mul by lia. lia.
    - rewrite E, Zdigits2_mul by lia. cbn [Zdigits2]. lia. }
  rewrite Ed, C. unfold shl_align.
  destruct (e' - e) as [|d|d] eqn:Q.
  - apply round_aux_exact; auto; [lia|]. destruct D as [[L E]|[L E]].
    + now rewrite E, Q.
    + rewrite E. replace (e - e') with 0 by lia. rewrite Q. ring.
  - apply round_aux_exact; auto; [lia|]. destruct D as [[L E]|[L E]]; [now rewrite E, Q|lia].
  - apply round_aux_exact; auto; [lia|]. destruct D as [[L E]|[L E]]; [lia|].
    rewrite shift_pos_mul, E, Z.sub_diag. replace (e - e') with (Zpos d) by lia. ring.
Qed.

(* results below the normal range: bounded by the rounded-up quotient *)
Lemma round_aux_tiny s m e k : 0 < m -> 0 <= k < prec -> fexp prec emax (Zdigits2 m + e) = emin prec emax ->
  emin prec emax <= emax - prec -> e <= emin prec emax ->
  m < 2 ^ (k + (emin prec emax - e)) ->
  binary_round_aux prec emax s m e loc_Exact = S754_zero s \/
  exists p, binary_round_aux prec emax s m e loc_Exact = S754_finite s p (emin prec emax) /\ Zpos p <= 2 ^ k.
Proof.
  intros Hm Hk C B Le Lt. unfold binary_round_aux, shr_fexp. rewrite C.
  set (d := emin prec emax - e) in *.
  assert (Q : exists r, shr (shr_record_of_loc m loc_Exact) e d = (r, emin prec emax) /\ shr_m r = m / 2 ^ d /\ 0 <= shr_m r).
  { destruct d as [|p|p] eqn:Ed; try lia; cbn [shr shr_record_of_loc].
    - eexists; split; [f_equal; lia|]. cbn. rewrite Z.div_1_r. lia.
    - eexists; split; [f_equal; lia|]. rewrite iter_pos_nat, <- (positive_nat_Z p).
      apply iter_shr_m. cbn. lia. }
  destruct Q as (r & -> & Er & Pr).
  assert (Ub : shr_m r < 2 ^ k).
  { rewrite Er. apply Z.div_lt_upper_bound; [apply pow2_pos; lia|]. rewrite <- Z.pow_add_r by lia.
    replace (d + k) with (k + d) by lia. exact Lt. }
  set (m1 := round_nearest_even (shr_m r) (loc_of_shr_record r)).
  assert (M1 : 0 <= m1 <= 2 ^ k).
  { unfold m1, round_nearest_even. destruct (loc_of_shr_record r) as [|[]]; try destruct (Z.even _); lia. }
  assert (C1 : 0 < m1 -> fexp prec emax (Zdigits2 m1 + emin prec emax) = emin prec emax).
  { intros P. unfold fexp. rewrite Zdigits2_log2 by lia.
    assert (Z.log2 m1 <= k) by (rewrite <- (Z.log2_pow2 k) by lia; apply Z.log2_le_mono; lia). lia. }
  destruct (Z.eq_dec m1 0) as [E0|E0].
  - left. rewrite E0. cbn [Zdigits2 shr_record_of_loc]. unfold shr.
    destruct (fexp prec emax (0 + emin prec emax) - emin prec emax) as [|q|q]; cbn [shr_m]; try reflexivity.
    rewrite iter_pos_nat. pose proof (iter_shr_m (Pos.to_nat q) (Build_shr_record 0 false false) ltac:(cbn; lia)) as [I _].
    rewrite I. cbn [shr_m]. rewrite Zdiv_0_l. reflexivity.
  - right. rewrite C1, Z.sub_diag by lia. cbn [shr shr_record_of_loc shr_m].
    destruct m1 as [|q|q] eqn:Eq; try lia. exists q.
    apply Zle_imp_le_bool in B. rewrite B. split; [reflexivity|lia].
Qed.

End FP.
