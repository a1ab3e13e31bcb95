From Coq Require Import ZArith List Bool Lia.
From Verif Require Import Bits FoldModel FoldSpec.
Import ListNotations.
Open Scope Z_scope.

Lemma type_bits t : int_type t -> 8 <= bits t <= 64.
Proof. unfold int_type. lia. Qed.

Lemma promoted_bits t : int_type t -> bits t <= bits (promoted t) /\ 32 <= bits (promoted t).
Proof. intros H. unfold promoted. destruct (Z.ltb_spec (bits t) 32); cbn [bits]; lia. Qed.

Lemma promoted_wide t : 32 <= bits t -> promoted t = t.
Proof. intros H. unfold promoted. destruct (Z.ltb_spec (bits t) 32); [lia|auto]. Qed.

Lemma promoted_narrow t : bits t < 32 -> promoted t = {| bits := 32; sgn := true |}.
Proof. intros H. unfold promoted. destruct (Z.ltb_spec (bits t) 32); [auto|lia]. Qed.

Lemma narrow_small t z : int_type t -> bits t < 32 -> fits t z -> - 2 ^ 16 < z < 2 ^ 16.
Proof.
  intros T N F. unfold fits in F. assert (2 ^ bits t <= 2 ^ 16) by (apply Z.pow_le_mono_r; unfold int_type in T; lia).
  assert (2 ^ (bits t - 1) <= 2 ^ 16) by (apply Z.pow_le_mono_r; unfold int_type in T; lia).
  assert (2 ^ (bits t - 1) < 2 ^ 16) by (apply Z.pow_lt_mono_r; unfold int_type in T; lia).
  destruct (sgn t); lia.
Qed.

Lemma pat_range t z : int_type t -> 0 <= pat t z < 2 ^ bits t.
Proof. intros T. apply Z.mod_pos_bound. apply pow2_pos. apply type_bits in T. lia. Qed.

Lemma mod_mod_le z n m : 0 <= n <= m -> (z mod 2 ^ m) mod 2 ^ n = z mod 2 ^ n.
Proof.
  intros H. pose proof (pow2_pos n ltac:(lia)). replace m with (n + (m - n)) by lia. rewrite Z.pow_add_r by lia.
  pose proof (pow2_pos (m - n) ltac:(lia)). rewrite Z.rem_mul_r by lia.
  rewrite (Z.mul_comm (2 ^ n)), Z.mod_add by lia. apply Z.mod_mod. lia.
Qed.

Lemma pat_cast t p z : int_type t -> bits t <= bits p -> pat t (cast p z) = pat t z.
Proof.
  intros T H. apply type_bits in T. unfold pat, cast. destruct (sgn p).
  - rewrite <- (mod_mod_le (wraps (bits p) z) (bits t) (bits p)) by lia. fold (wrapu (bits p) (wraps (bits p) z)).
    rewrite wrapu_wraps by lia. unfold wrapu. apply mod_mod_le. lia.
  - unfold wrapu. apply mod_mod_le. lia.
Qed.

Lemma cast_fits t z : int_type t -> fits t (cast t z).
Proof.
  intros T. apply type_bits in T. unfold fits, cast. destruct (sgn t); [apply wraps_range; lia|apply wrapu_range; lia].
Qed.

Lemma cast_id t z : int_type t -> fits t z -> cast t z = z.
Proof.
  intros T. apply type_bits in T. unfold fits, cast. destruct (sgn t); intros F; [apply wraps_id; auto; lia|apply wrapu_id; auto].
Qed.

Lemma s_of_pat t z : int_type t -> sgn t = true -> fits t z -> s_of (bits t) (pat t z) = z.
Proof.
  intros T S F. apply type_bits in T. unfold fits in F. rewrite S in F. unfold s_of, pat. set (n := bits t) in *.
  pose proof (pow2_split n ltac:(lia)). pose proof (pow2_pos (n - 1) ltac:(lia)).
  destruct (Z.lt_ge_cases z 0).
  - replace (z mod 2 ^ n) with (z + 2 ^ n) by (symmetry; rewrite <- (Z.mod_small (z + 2 ^ n) (2 ^ n)) by lia;
      rewrite <- Z.add_mod_idemp_r, Z.mod_same, Z.add_0_r by lia; reflexivity).
    destruct (Z.leb_spec (2 ^ (n - 1)) (z + 2 ^ n)); lia.
  - rewrite Z.mod_small by lia. destruct (Z.leb_spec (2 ^ (n - 1)) z); lia.
Qed.

Lemma val_of_pat t z : int_type t -> fits t z -> val_of t (pat t z) = z.
Proof.
  intros T F. unfold val_of. destruct (sgn t) eqn:S; [apply s_of_pat; auto|]. unfold fits in F. rewrite S in F. unfold pat. apply Z.mod_small. auto.
Qed.

Lemma pat_of_u t z : sgn t = false -> fits t z -> pat t z = z.
Proof. intros S F. unfold fits in F. rewrite S in F. unfold pat. apply Z.mod_small. auto. Qed.

Lemma pat_inj t a b : int_type t -> fits t a -> fits t b -> (pat t a =? pat t b) = (a =? b).
Proof.
  intros T A B. destruct (Z.eqb_spec a b) as [->|N]; [apply Z.eqb_refl|]. apply Z.eqb_neq. intros E. apply N.
  rewrite <- (val_of_pat t a), <- (val_of_pat t b), E; auto.
Qed.

Lemma pat_zero t b : int_type t -> fits t b -> (pat t b =? 0) = (b =? 0).
Proof.
  intros T B. replace 0 with (pat t 0) at 1 by (unfold pat; apply Z.mod_0_l; pose proof (pow2_pos (bits t)); apply type_bits in T; lia).
  apply pat_inj; auto. unfold fits. pose proof (type_bits t T). pose proof (pow2_pos (bits t) ltac:(lia)).
  pose proof (pow2_pos (bits t - 1) ltac:(lia)). destruct (sgn t); lia.
Qed.

Lemma harith_true p z : 32 <= bits p -> harith true p z = HVal (cast p z).
Proof.
  intros B. unfold harith, cast. destruct (sgn p); auto.
  destruct ((- 2 ^ (bits p - 1) <=? z) && (z <? 2 ^ (bits p - 1))) eqn:E; auto.
  apply andb_prop in E as (E1 & E2). apply Z.leb_le in E1. apply Z.ltb_lt in E2. rewrite wraps_id; auto; [lia|split; auto].
Qed.

Lemma arith_lane wrap t (f : Z -> Z -> Z) a b r : int_type t -> fits t a -> fits t b ->
  (forall x y, (f (x mod 2 ^ bits t) (y mod 2 ^ bits t)) mod 2 ^ bits t = (f x y) mod 2 ^ bits t) ->
  run_arith wrap t f (pat t a) (pat t b) = Some r ->
  hmap (cast t) (harith true (promoted t) (f a b)) = HVal (cast t (cast (promoted t) (f a b))) /\
  pat t (cast t (cast (promoted t) (f a b))) = r.
Proof.
  intros T A B CF R. destruct (promoted_bits t T). rewrite harith_true by lia. split; auto.
  rewrite !pat_cast by (auto; lia). unfold run_arith in R.
  destruct (sgn t && negb wrap && negb _); [discriminate|]. injection R as <-. unfold pat. rewrite CF. auto.
Qed.

Lemma shl_amount t b : int_type t -> fits t b -> (bits t <=? pat t b) = false -> pat t b = b /\ 0 <= b < bits t.
Proof.
  intros T B H. apply Z.leb_gt in H. unfold fits in B. pose proof (pat_range t b T).
  destruct (sgn t) eqn:S; [|assert (E : pat t b = b) by (apply pat_of_u; auto; unfold fits; rewrite S; auto); rewrite E in *; lia].
  unfold pat in *. pose proof (type_bits t T). pose proof (pow2_split (bits t) ltac:(lia)).
  assert (bits t < 2 ^ (bits t - 1)).
  { destruct T as [E|[E|[E|E]]]; rewrite E; reflexivity. }
  destruct (Z.lt_ge_cases b 0).
  - exfalso. replace (b mod 2 ^ bits t) with (b + 2 ^ bits t) in H; [lia|].
    rewrite <- (Z.mod_small (b + 2 ^ bits t) (2 ^ bits t)) by lia.
    rewrite <- Z.add_mod_idemp_r, Z.mod_same, Z.add_0_r by lia. reflexivity.
  - rewrite Z.mod_small in * by lia. lia.
Qed.

Lemma land_mod a b n : 0 <= n -> (Z.land a b) mod 2 ^ n = Z.land (a mod 2 ^ n) (b mod 2 ^ n).
Proof.
  intros H. apply Z.bits_inj'. intros i Hi. rewrite Z.land_spec.
  destruct (Z.lt_ge_cases i n); [rewrite !Z.mod_pow2_bits_low by lia; apply Z.land_spec|rewrite !Z.mod_pow2_bits_high by lia; auto].
Qed.
Lemma lor_mod a b n : 0 <= n -> (Z.lor a b) mod 2 ^ n = Z.lor (a mod 2 ^ n) (b mod 2 ^ n).
Proof.
  intros H. apply Z.bits_inj'. intros i Hi. rewrite Z.lor_spec.
  destruct (Z.lt_ge_cases i n); [rewrite !Z.mod_pow2_bits_low by lia; apply Z.lor_spec|rewrite !Z.mod_pow2_bits_high by lia; auto].
Qed.
Lemma lxor_mod a b n : 0 <= n -> (Z.lxor a b) mod 2 ^ n = Z.lxor (a mod 2 ^ n) (b mod 2 ^ n).
Proof.
  intros H. apply Z.bits_inj'. intros i Hi. rewrite Z.lxor_spec.
  destruct (Z.lt_ge_cases i n); [rewrite !Z.mod_pow2_bits_low by lia; apply Z.lxor_spec|rewrite !Z.mod_pow2_bits_high by lia; auto].
Qed.

Lemma quot_abs a b : b <> 0 -> Z.abs (Z.quot a b) <= Z.abs a.
Proof. intros H. rewrite <- Z.quot_abs by auto. rewrite Z.quot_div_nonneg by lia. apply Z.div_le_upper_bound; [lia|]. nia. Qed.

Lemma no_trap t a b : int_type t -> fits t a -> fits t b -> b <> 0 ->
  (sgn t = true -> ~ (a = - 2 ^ (bits t - 1) /\ b = -1)) ->
  sgn (promoted t) && negb (Z.quot a b <? 2 ^ (bits (promoted t) - 1)) = false.
Proof.
  intros T A B N0 OV. pose proof (quot_abs a b N0) as Q.
  destruct (Z.lt_ge_cases (bits t) 32) as [L|L].
  - rewrite promoted_narrow by auto. cbn [sgn bits]. pose proof (narrow_small t a T L A).
    assert (Z.quot a b <? 2 ^ (32 - 1) = true) as ->; auto. apply Z.ltb_lt. change (2 ^ (32 - 1)) with (2 ^ 15 * 2 ^ 16). lia.
  - rewrite promoted_wide by auto. destruct (sgn t) eqn:S; auto. cbn [andb]. apply negb_false_iff. apply Z.ltb_lt.
    specialize (OV eq_refl). unfold fits in A, B. rewrite S in A, B.
    destruct (Z.eq_dec a (- 2 ^ (bits t - 1))) as [E|E].
    + assert (b <> -1) by tauto. pose proof (pow2_pos (bits t - 1) ltac:(lia)).
      destruct (Z.eq_dec b 1) as [->|N1]; [rewrite Z.quot_1_r; lia|].
      assert (Z.abs (Z.quot a b) < Z.abs a); [|lia].
      rewrite <- Z.quot_abs by auto. rewrite Z.quot_div_nonneg by lia. apply Z.div_lt; lia.
    + lia.
Qed.

Lemma lane_agrees wrap t op a b r : int_type t -> fits t a -> fits t b ->
  run_binary wrap t op (pat t a) (pat t b) = Some r ->
  exists v, fold_lane true t op a b = Some (HVal v) /\ pat t v = r.
Proof.
  intros T A B R. pose proof (type_bits t T) as TB. pose proof (promoted_bits t T) as (PB1 & PB2).
  assert (P2 : 0 < 2 ^ bits t) by (apply pow2_pos; lia).
  assert (P01 : forall c : bool, pat t (b2z c) = b2z c).
  { intros c. unfold pat. apply Z.mod_small. assert (2 ^ 1 <= 2 ^ bits t) by (apply Z.pow_le_mono_r; lia). destruct c; cbn; lia. }
  assert (PC : forall z, pat t (cast t z) = pat t z) by (intros; apply pat_cast; auto; lia).
  destruct op; cbn [run_binary fold_lane] in *.
  - destruct (arith_lane wrap t Z.add a b r T A B (fun x y => eq_sym (Z.add_mod x y (2 ^ bits t) ltac:(lia))) R) as (E1 & E2).
    eexists. split; [f_equal; exact E1|auto].
  - destruct (arith_lane wrap t Z.sub a b r T A B (fun x y => eq_sym (Zminus_mod x y (2 ^ bits t))) R) as (E1 & E2).
    eexists. split; [f_equal; exact E1|auto].
  - destruct (arith_lane wrap t Z.mul a b r T A B (fun x y => eq_sym (Z.mul_mod x y (2 ^ bits t) ltac:(lia))) R) as (E1 & E2).
    eexists. split; [f_equal; exact E1|auto].
  - rewrite pat_zero in R by auto. destruct (Z.eqb_spec b 0) as [E0|E0]; [discriminate|].
    destruct (sgn t) eqn:S.
    + rewrite !s_of_pat in R by auto. destruct ((a =? - 2 ^ (bits t - 1)) && (b =? -1)) eqn:OV; [discriminate|].
      rewrite no_trap; auto.
      * eexists. split; [reflexivity|]. rewrite PC. congruence.
      * intros _ (E1 & E2). rewrite E1, E2, Z.eqb_refl in OV. discriminate.
    + rewrite !pat_of_u in R by auto. rewrite no_trap; auto; [|congruence].
      eexists. split; [reflexivity|]. rewrite PC. injection R as <-.
      pose proof A as A'. pose proof B as B'. unfold fits in A', B'. rewrite S in A', B'.
      rewrite Z.quot_div_nonneg by lia. unfold pat. apply Z.mod_small. split; [apply Z.div_pos; lia|].
      apply Z.le_lt_trans with a; [|lia]. apply Z.div_le_upper_bound; nia.
  - rewrite pat_zero in R by auto. destruct (Z.eqb_spec b 0) as [E0|E0]; [discriminate|].
    destruct (sgn t) eqn:S.
    + rewrite !s_of_pat in R by auto. destruct ((a =? - 2 ^ (bits t - 1)) && (b =? -1)) eqn:OV; [discriminate|].
      rewrite no_trap; auto.
      * eexists. split; [reflexivity|]. rewrite PC. congruence.
      * intros _ (E1 & E2). rewrite E1, E2, Z.eqb_refl in OV. discriminate.
    + rewrite !pat_of_u in R by auto. rewrite no_trap; auto; [|congruence].
      eexists. split; [reflexivity|]. rewrite PC. injection R as <-.
      pose proof A as A'. pose proof B as B'. unfold fits in A', B'. rewrite S in A', B'.
      rewrite Z.rem_mod_nonneg by lia. unfold pat. apply Z.mod_small. pose proof (Z.mod_pos_bound a b ltac:(lia)). lia.
  - destruct (bits t <=? pat t b) eqn:E; [discriminate|]. destruct (shl_amount t b T B E) as (EB & BR). rewrite EB in *.
    injection R as <-. unfold hshl.
    assert ((b <? 0) || (bits (promoted t) <=? b) = false) as ->.
    { apply orb_false_iff. split; [apply Z.ltb_ge; lia|apply Z.leb_gt; lia]. }
    exists (cast t (cast (promoted t) (a * 2 ^ b))). split.
    + assert (EC : cast (promoted t) (a * 2 ^ b) = if sgn (promoted t) then wraps (bits (promoted t)) (a * 2 ^ b) else wrapu (bits (promoted t)) (a * 2 ^ b)) by reflexivity.
      rewrite EC. destruct (sgn (promoted t)) eqn:S; [destruct (_ && _)|]; reflexivity.
    + rewrite !pat_cast by (auto; lia). unfold pat. rewrite Z.mul_mod_idemp_l by lia. auto.
  - destruct (bits t <=? pat t b) eqn:E; [discriminate|]. destruct (shl_amount t b T B E) as (EB & BR). rewrite EB in *.
    injection R as <-. unfold hshr.
    assert ((b <? 0) || (bits (promoted t) <=? b) = false) as ->.
    { apply orb_false_iff. split; [apply Z.ltb_ge; lia|apply Z.leb_gt; lia]. }
    eexists. split; [reflexivity|]. rewrite PC. destruct (sgn t) eqn:S; [rewrite s_of_pat; auto|].
    rewrite (pat_of_u t a) by auto. pose proof A as A'. unfold fits in A'. rewrite S in A'. unfold pat. apply Z.mod_small.
    pose proof (pow2_pos b ltac:(lia)). split; [apply Z.div_pos; lia|]. apply Z.le_lt_trans with a; [|lia]. apply Z.div_le_upper_bound; nia.
  - injection R as <-. eexists. split; [reflexivity|]. rewrite PC. apply land_mod. lia.
  - injection R as <-. eexists. split; [reflexivity|]. rewrite PC. apply lxor_mod. lia.
  - injection R as <-. eexists. split; [reflexivity|]. rewrite PC. apply lor_mod. lia.
  - rewrite !val_of_pat in R by auto. injection R as <-. eexists. split; [reflexivity|]. apply P01.
  - rewrite !val_of_pat in R by auto. injection R as <-. eexists. split; [reflexivity|]. rewrite P01, Z.gtb_ltb. reflexivity.
  - rewrite !val_of_pat in R by auto. injection R as <-. eexists. split; [reflexivity|]. apply P01.
  - rewrite !val_of_pat in R by auto. injection R as <-. eexists. split; [reflexivity|]. rewrite P01, Z.geb_leb. reflexivity.
  - rewrite pat_inj in R by auto. injection R as <-. eexists. split; [reflexivity|]. apply P01.
  - rewrite pat_inj in R by auto. injection R as <-. eexists. split; [reflexivity|]. rewrite P01. destruct (a =? b); auto.
Qed.

(** A value computed without relying on wrapping is the one computed with it. *)
Lemma strict_lane t op a b v : fold_lane false t op a b = Some (HVal v) -> fold_lane true t op a b = Some (HVal v).
Proof.
  assert (HA : forall z, hmap (cast t) (harith false (promoted t) z) = HVal v -> hmap (cast t) (harith true (promoted t) z) = HVal v).
  { intros z. unfold harith. destruct (sgn _); auto. destruct (_ && _); auto. discriminate. }
  destruct op; cbn [fold_lane]; auto; intros H; injection H as H; f_equal; auto.
  unfold hshl in *. destruct (_ || _); auto. destruct (sgn _); auto. destruct (_ && _); auto. discriminate.
Qed.

(** All lanes. *)
Lemma fold_agrees wrap t op v0 v1 rs : int_type t -> Forall (fits t) v0 -> Forall (fits t) v1 -> length v0 = length v1 ->
  Forall2 (fun xy r => run_binary wrap t op (fst xy) (snd xy) = Some r) (combine (map (pat t) v0) (map (pat t) v1)) rs ->
  exists vs, fold_binary true t op v0 v1 = FConst vs /\ map (pat t) vs = rs.
Proof.
  intros T. revert v1 rs. induction v0 as [|a v0 IH]; intros [|b v1] rs F0 F1 L R; try discriminate; cbn in R.
  - inversion R; subst. exists []. auto.
  - inversion R as [|? r ? rs' R1 R2]; subst. inversion F0; subst. inversion F1; subst. cbn in R1.
    destruct (lane_agrees wrap t op a b r T ltac:(auto) ltac:(auto) R1) as (v & E & P). cbn [fold_binary]. rewrite E.
    destruct (IH v1 rs' ltac:(auto) ltac:(auto) ltac:(auto) R2) as (vs & E2 & P2). rewrite E2. exists (v :: vs). cbn. rewrite P, P2. auto.
Qed.

Lemma fold_strict hw t op v0 v1 vs : fold_binary hw t op v0 v1 = FConst vs -> fold_binary true t op v0 v1 = FConst vs.
Proof.
  destruct hw; auto. revert v1 vs. induction v0 as [|a v0 IH]; intros [|b v1] vs; cbn [fold_binary]; auto.
  destruct (fold_lane false t op a b) as [[v| |]|] eqn:E; try discriminate. rewrite (strict_lane _ _ _ _ _ E).
  destruct (fold_binary false t op v0 v1) eqn:E2; try discriminate. rewrite (IH _ _ E2). auto.
Qed.

Lemma fold_right hw wrap t op v0 v1 rs vs : int_type t -> Forall (fits t) v0 -> Forall (fits t) v1 -> length v0 = length v1 ->
  Forall2 (fun xy r => run_binary wrap t op (fst xy) (snd xy) = Some r) (combine (map (pat t) v0) (map (pat t) v1)) rs ->
  fold_binary hw t op v0 v1 = FConst vs -> map (pat t) vs = rs.
Proof.
  intros T F0 F1 L R E. apply fold_strict in E. destruct (fold_agrees wrap t op v0 v1 rs T F0 F1 L R) as (vs' & E' & P). congruence.
Qed.

(** Lane by lane, also when other lanes are undefined. *)
Lemma fold_lanewise hw wrap t op v0 v1 vs : int_type t -> Forall (fits t) v0 -> Forall (fits t) v1 -> length v0 = length v1 ->
  fold_binary hw t op v0 v1 = FConst vs -> length vs = length v0 /\
  forall i a b, nth_error v0 i = Some a -> nth_error v1 i = Some b -> forall r, run_binary wrap t op (pat t a) (pat t b) = Some r ->
  exists v, nth_error vs i = Some v /\ pat t v = r.
Proof.
  intros T. revert v1 vs. induction v0 as [|a v0 IH]; intros [|b v1] vs F0 F1 L E; try discriminate; cbn [fold_binary] in E.
  - injection E as <-. split; auto. intros [|i]; discriminate.
  - inversion F0; subst. inversion F1; subst. destruct (fold_lane hw t op a b) as [[v| |]|] eqn:EL; try discriminate.
    destruct (fold_binary hw t op v0 v1) as [l| | |] eqn:E2; try discriminate. injection E as <-.
    destruct (IH v1 l ltac:(auto) ltac:(auto) ltac:(auto) E2) as (LL & IH'). split; [cbn; auto|].
    intros [|i] a' b' Ha Hb r R; cbn in *; [|eapply IH'; eauto]. injection Ha as <-. injection Hb as <-.
    destruct (lane_agrees wrap t op a b r T ltac:(auto) ltac:(auto) R) as (v' & E' & P). exists v. split; auto.
    assert (fold_lane true t op a b = Some (HVal v)) by (destruct hw; auto; apply strict_lane; auto). congruence.
Qed.

Lemma negate_agrees hw wrap t a r v : int_type t -> fits t a ->
  run_negate wrap t (pat t a) = Some r -> fold_negate hw false t a = Some (HVal v) -> pat t v = r.
Proof.
  intros T A R E. unfold fold_negate, negate_case in E. cbn [negb] in E.
  assert (E' : Some (hmap (cast t) (harith hw (promoted t) (- a))) = Some (HVal v)) by (destruct (_ && _); auto). clear E.
  pose proof (promoted_bits t T) as (PB1 & PB2). pose proof (type_bits t T).
  assert (HE : hmap (cast t) (harith true (promoted t) (- a)) = HVal v).
  { destruct hw; [congruence|]. injection E' as E'. revert E'. unfold harith. destruct (sgn _); auto. destruct (_ && _); auto. discriminate. }
  rewrite harith_true in HE by lia. injection HE as <-. rewrite !pat_cast by (auto; lia).
  unfold run_negate, run_arith in R. destruct (_ && _ && _); [discriminate|]. injection R as <-. unfold pat.
  rewrite (Zminus_mod 0 a), (Zminus_mod 0 (a mod _)), Z.mod_mod by (pose proof (pow2_pos (bits t)); lia). f_equal.
Qed.

Lemma negate_defined t a : int_type t -> exists v, fold_negate true false t a = Some (HVal v).
Proof.
  intros T. pose proof (promoted_bits t T). unfold fold_negate, negate_case. cbn [negb].
  destruct (_ && _); rewrite harith_true by lia; eexists; reflexivity.
Qed.

Lemma negate_varying hw t a : ~ (bits t = 16 /\ sgn t = false) -> fold_negate hw true t a = fold_negate hw false t a.
Proof.
  intros H. unfold fold_negate, negate_case. destruct (Z.eqb_spec (bits t) 16); cbn [andb]; auto. destruct (sgn t) eqn:S; auto. tauto.
Qed.

Lemma bitnot_agrees t a : int_type t -> fits t a -> pat t (fold_bitnot t a) = run_bitnot t (pat t a).
Proof.
  intros T A. pose proof (type_bits t T). unfold fold_bitnot. rewrite pat_cast by (auto; lia). unfold run_bitnot, pat.
  replace (2 ^ bits t - 1) with (Z.ones (bits t)) by (rewrite Z.ones_equiv; lia).
  apply Z.bits_inj'. intros i Hi. rewrite Z.lxor_spec. destruct (Z.lt_ge_cases i (bits t)).
  - rewrite !Z.mod_pow2_bits_low, Z.lnot_spec, Z.ones_spec_low by lia. destruct (Z.testbit a i); reflexivity.
  - rewrite !Z.mod_pow2_bits_high, Z.ones_spec_high by lia. reflexivity.
Qed.

Lemma conv_int_agrees from to a : int_type from -> int_type to -> fits from a ->
  pat to (conv_int to a) = run_conv_int from to (pat from a).
Proof.
  intros F T A. pose proof (type_bits from F). pose proof (type_bits to T). unfold conv_int. rewrite pat_cast by (auto; lia).
  unfold run_conv_int. destruct (Z.ltb_spec (bits from) (bits to)).
  - destruct (sgn from) eqn:S; [rewrite s_of_pat; auto|]. rewrite (pat_of_u from) by auto. unfold fits in A. rewrite S in A.
    unfold pat. apply Z.mod_small. assert (2 ^ bits from <= 2 ^ bits to) by (apply Z.pow_le_mono_r; lia). lia.
  - unfold pat. symmetry. apply mod_mod_le. lia.
Qed.

Lemma bool_agrees n op a b r : 0 < n -> fold_bool op a b = Some r -> run_bool n op (pat_bool n a) (pat_bool n b) = Some (pat_bool n r).
Proof.
  intros N. pose proof (pow2_split n N). pose proof (pow2_pos (n - 1) ltac:(lia)).
  assert (LA : Z.land (2 ^ n - 1) (2 ^ n - 1) = 2 ^ n - 1) by apply Z.land_diag.
  assert (LO : Z.lor (2 ^ n - 1) (2 ^ n - 1) = 2 ^ n - 1) by apply Z.lor_diag.
  destruct op, a, b; cbn [fold_bool run_bool pat_bool andb orb xorb eqb negb]; intros E; try discriminate; injection E as <-; cbn [pat_bool];
    rewrite ?Z.gtb_ltb, ?Z.geb_leb, ?Z.land_0_r, ?Z.land_0_l, ?Z.lor_0_r, ?Z.lor_0_l, ?Z.lxor_0_r, ?Z.lxor_0_l, ?Z.lxor_nilpotent, ?LA, ?LO; auto;
    unfold b2z; repeat match goal with |- context [?x <? ?y] => destruct (Z.ltb_spec x y); try lia
      | |- context [?x <=? ?y] => destruct (Z.leb_spec x y); try lia | |- context [?x =? ?y] => destruct (Z.eqb_spec x y); try lia end; auto.
Qed.

Lemma select_agrees {A} bv (v1 v2 : list A) : length bv = length v1 -> length bv = length v2 -> bv <> [] ->
  match fold_select bv with SFirst => v1 | SSecond => v2 | SBoth => select_lanes bv v1 v2 end = select_lanes bv v1 v2.
Proof.
  intros L1 L2 NE. destruct bv as [|b bv]; [congruence|]. unfold fold_select. destruct (forallb _ _) eqn:F; auto.
  rewrite forallb_forall in F.
  assert (G : forall l (v1 v2 : list A), length l = length v1 -> length l = length v2 -> (forall x, In x l -> eqb x b = true) ->
    select_lanes l v1 v2 = if b then v1 else v2).
  { clear. induction l as [|x l IH]; intros [|y v1] [|z v2] L1 L2 F; try discriminate; cbn [select_lanes]; [destruct b; auto|].
    cbn in L1, L2. rewrite IH; auto; [|intros q Q; apply F; right; auto]. rewrite (eqb_prop _ _ (F x (or_introl eq_refl))). destruct b; auto. }
  rewrite (G (b :: bv) v1 v2 L1 L2 F). destruct b; auto.
Qed.

Lemma select_lanes_nth {A} bv (v1 v2 : list A) i b x y : nth_error bv i = Some b -> nth_error v1 i = Some x -> nth_error v2 i = Some y ->
  nth_error (select_lanes bv v1 v2) i = Some (if b then x else y).
Proof.
  revert v1 v2 i. induction bv as [|c bv IH]; intros [|p v1] [|q v2] [|i] B X Y; try discriminate; cbn in *; [|apply IH; auto].
  injection B as ->. injection X as ->. injection Y as ->. reflexivity.
Qed.

(** ** Floating point *)
From Coq Require Import SpecFloat.
From Verif Require Import FpProofs.

Lemma fcmp_agrees op a b r : fold_fcmp op a b = Some r -> run_fcmp op a b = Some r.
Proof.
  assert (SW : forall x y, SFltb y x = match SFcompare x y with Some Datatypes.Gt => true | _ => false end /\
    SFleb y x = match SFcompare x y with Some Datatypes.Gt | Some Datatypes.Eq => true | _ => false end).
  { intros x y. unfold SFltb, SFleb.
    assert (E : SFcompare y x = match SFcompare x y with Some c => Some (CompOpp c) | None => None end).
    { destruct x as [[]|[]| |[] m e], y as [[]|[]| |[] n f]; cbn; auto; rewrite (Z.compare_antisym e f); destruct (Z.compare e f) eqn:EE; cbn; auto;
        fold (Pos.compare n m); fold (Pos.compare m n); rewrite (Pos.compare_antisym m n); destruct (Pos.compare m n); auto. }
    rewrite E. destruct (SFcompare x y) as [[]|]; auto. }
  destruct op; cbn [fold_fcmp run_fcmp]; try discriminate; intros H; rewrite <- H; f_equal; try apply SW; reflexivity.
Qed.

Lemma float_bool_agrees x : conv_float_bool x = run_float_bool x.
Proof. destruct x as [[]|[]| |[] m e]; reflexivity. Qed.

Lemma valid_bounds t m e s : float_type t -> is_float t (S754_finite s m e) ->
  Zdigits2 (Zpos m) <= prec t /\ 3 - emax t - prec t <= e <= emax t - prec t.
Proof.
  intros T H. unfold is_float in H. cbn [valid_binary] in H. unfold bounded, canonical_mantissa in H.
  apply andb_prop in H as (H1 & H2). apply Zle_bool_imp_le in H2. apply Zeq_bool_eq in H1. cbn [Zdigits2].
  unfold fexp, emin in H1. lia.
Qed.

(** Widening is exact. *)
Lemma widen t s m e : t = half \/ t = single -> is_float t (S754_finite s m e) ->
  exists k, 0 <= k /\ fconvert t double (S754_finite s m e) = S754_finite s (Z.to_pos (Zpos m * 2 ^ k)) (e - k).
Proof.
  intros T V. pose proof (valid_bounds t m e s ltac:(unfold float_type; tauto) V) as (D & E).
  assert (DP : 0 < Zdigits2 (Zpos m)) by (cbn; lia).
  exists (53 - Zdigits2 (Zpos m)).
  assert (K : 29 <= 53 - Zdigits2 (Zpos m) <= 52) by (destruct T; subst t; cbn [prec half single] in *; lia).
  set (k := 53 - Zdigits2 (Zpos m)) in *.
  split; [lia|]. unfold fconvert.
  replace (fty_eqb t double) with false by (destruct T; subst t; reflexivity).
  cbn [prec emax double]. pose proof (pow2_pos k ltac:(lia)).
  apply round_exact.
  - lia.
  - rewrite Zdigits2_mul by lia. unfold fexp, emin. destruct T; subst t; cbn [prec emax half single] in *; lia.
  - destruct T; subst t; cbn [prec emax half single] in *; lia.
  - right. split; [lia|]. f_equal. f_equal. lia.
Qed.

Lemma trunc_scale s m e k : 0 <= k -> trunc (S754_finite s (Z.to_pos (Zpos m * 2 ^ k)) (e - k)) = trunc (S754_finite s m e).
Proof.
  intros K. pose proof (pow2_pos k K). cbn [trunc]. rewrite Z2Pos.id by lia. f_equal. f_equal.
  destruct (Z.leb_spec 0 (e - k)), (Z.leb_spec 0 e); try lia.
  - replace (2 ^ e) with (2 ^ k * 2 ^ (e - k)) by (rewrite <- Z.pow_add_r by lia; f_equal; lia). ring.
  - replace k with (e + - (e - k)) at 1 by lia. rewrite Z.pow_add_r, Z.mul_assoc by lia. apply Z.div_mul.
    pose proof (pow2_pos (- (e - k)) ltac:(lia)). lia.
  - replace (- (e - k)) with (- e + k) by lia. rewrite Z.pow_add_r by lia. apply Z.div_mul_cancel_r; pose proof (pow2_pos (- e) ltac:(lia)); lia.
Qed.

Lemma float_int_agrees from t x : float_type from -> is_float from x -> conv_float_int from t x = to_int t x.
Proof.
  intros F V. unfold conv_float_int. destruct (fty_eqb from double) eqn:D.
  - unfold fconvert. rewrite D. auto.
  - assert (T : from = half \/ from = single) by (destruct F as [F|[F|F]]; subst; auto; discriminate).
    destruct x as [s|s| |s m e]; try (unfold fconvert; rewrite D; reflexivity).
    destruct (widen from s m e T V) as (k & K & ->). unfold to_int. rewrite trunc_scale by auto. auto.
Qed.

(** The same number in two notations rounds to the same. *)
Lemma shr_scale m e k j : 0 <= k -> 0 <= j ->
  shr (Build_shr_record (m * 2 ^ k) false false) (e - k) (j + k) = shr (Build_shr_record m false false) e j.
Proof.
  intros K J. destruct (Z.eq_dec k 0) as [->|NK].
  { change (2 ^ 0) with 1. rewrite Z.mul_1_r, Z.sub_0_r, Z.add_0_r. auto. }
  destruct (Z.eq_dec j 0) as [->|NJ].
  { rewrite Z.add_0_l, shr_exact by lia. cbn [shr]. f_equal. lia. }
  destruct j as [|j|j]; try lia. destruct k as [|k|k]; try lia. cbn [Z.add shr]. rewrite !iter_pos_nat. f_equal; [|lia].
  replace (Pos.to_nat (j + k)) with (Pos.to_nat j + Pos.to_nat k)%nat by lia. rewrite <- iter_plus. f_equal.
  pose proof (iter_shr_exact (Pos.to_nat k) m) as E. rewrite positive_nat_Z in E. exact E.
Qed.

Lemma round_scale p em s m e k : 0 <= k ->
  binary_round p em s (Z.to_pos (Zpos m * 2 ^ k)) (e - k) = binary_round p em s m e.
Proof.
  intros K. pose proof (pow2_pos k K) as PK. unfold binary_round.
  assert (EM : Zpos (Z.to_pos (Zpos m * 2 ^ k)) = Zpos m * 2 ^ k) by (apply Z2Pos.id; lia).
  assert (ED : Zpos (digits2_pos (Z.to_pos (Zpos m * 2 ^ k))) + (e - k) = Zpos (digits2_pos m) + e).
  { change (Zpos (digits2_pos (Z.to_pos (Zpos m * 2 ^ k)))) with (Zdigits2 (Zpos (Z.to_pos (Zpos m * 2 ^ k)))).
    rewrite EM, Zdigits2_mul by lia. cbn [Zdigits2]. lia. }
  rewrite ED. set (f := fexp p em (Zpos (digits2_pos m) + e)).
  assert (SA : forall m e ex, exists m', shl_align m e ex = (m', Z.min e ex) /\ Zpos m' = Zpos m * 2 ^ (e - Z.min e ex)).
  { clear. intros m e ex. unfold shl_align. destruct (ex - e) as [|d|d] eqn:Q.
    - exists m. split; [f_equal; lia|]. replace (e - Z.min e ex) with 0 by lia. rewrite Z.pow_0_r. lia.
    - exists m. split; [f_equal; lia|]. replace (e - Z.min e ex) with 0 by lia. rewrite Z.pow_0_r. lia.
    - exists (shift_pos d m). split; [f_equal; lia|]. rewrite shift_pos_mul. f_equal. f_equal. lia. }
  destruct (SA (Z.to_pos (Zpos m * 2 ^ k)) (e - k) f) as (m1 & -> & E1).
  destruct (SA m e f) as (m2 & -> & E2). rewrite EM in E1.
  (* the two mantissas differ by a power of two *)
  set (d := Z.min e f - Z.min (e - k) f). assert (0 <= d) by (unfold d; lia).
  assert (E3 : Zpos m1 = Zpos m2 * 2 ^ d).
  { rewrite E1, E2, <- !Z.mul_assoc, <- !Z.pow_add_r by (unfold d; lia). f_equal. f_equal. unfold d. lia. }
  assert (E4 : Z.min (e - k) f = Z.min e f - d) by (unfold d; lia). rewrite E4, E3.
  unfold binary_round_aux at 1. unfold binary_round_aux at 1.
  assert (ES : shr_fexp p em (Zpos m2 * 2 ^ d) (Z.min e f - d) loc_Exact = shr_fexp p em (Zpos m2) (Z.min e f) loc_Exact).
  { unfold shr_fexp. cbn [shr_record_of_loc]. rewrite Zdigits2_mul by lia.
    replace (Zdigits2 (Zpos m2) + d + (Z.min e f - d)) with (Zdigits2 (Zpos m2) + Z.min e f) by lia.
    assert (EF : fexp p em (Zdigits2 (Zpos m2) + Z.min e f) = f).
    { rewrite E2, Zdigits2_mul by lia. unfold f. f_equal. cbn [Zdigits2]. lia. }
    rewrite EF. replace (f - (Z.min e f - d)) with (f - Z.min e f + d) by lia. apply shr_scale; lia. }
  rewrite ES. reflexivity.
Qed.

Lemma of_int_exact z s m : z = cond_Zopp s (Zpos m) -> Zpos m < 2 ^ 53 ->
  exists k, 0 <= k /\ of_int double z = S754_finite s (Z.to_pos (Zpos m * 2 ^ k)) (0 - k).
Proof.
  intros E L. assert (D1 : 0 < Zdigits2 (Zpos m)) by (cbn; lia).
  assert (D2 : Zdigits2 (Zpos m) <= 53).
  { rewrite Zdigits2_log2 by lia. apply Z.log2_lt_pow2 in L; lia. }
  exists (53 - Zdigits2 (Zpos m)). set (k := 53 - Zdigits2 (Zpos m)) in *. split; [lia|].
  unfold of_int, binary_normalize. replace z with (cond_Zopp s (Zpos m)).
  assert (R : binary_round 53 1024 s m 0 = S754_finite s (Z.to_pos (Zpos m * 2 ^ k)) (0 - k)).
  { pose proof (pow2_pos k ltac:(lia)). apply round_exact; [lia| |lia|].
    - rewrite Zdigits2_mul by lia. unfold fexp, emin. lia.
    - right. split; [lia|]. f_equal. f_equal. lia. }
  destruct s; cbn [cond_Zopp Z.opp]; exact R.
Qed.

Lemma int_float_agrees to z : float_type to -> Z.abs z < 2 ^ 53 \/ to = double -> conv_int_float to z = of_int to z.
Proof.
  intros T [L| ->]; [|reflexivity]. unfold conv_int_float. destruct (fty_eqb double to) eqn:E.
  { destruct T as [T|[T|T]]; subst; try discriminate. reflexivity. }
  unfold fconvert. rewrite E. destruct z as [|m|m]; [reflexivity| |].
  - destruct (of_int_exact (Zpos m) false m eq_refl ltac:(lia)) as (k & K & ->). rewrite round_scale by auto. reflexivity.
  - destruct (of_int_exact (Zneg m) true m eq_refl ltac:(lia)) as (k & K & ->). rewrite round_scale by auto. reflexivity.
Qed.

Lemma trunc_spec x z : trunc x = Some z <-> toward_zero x z.
Proof.
  destruct x as [s|s| |s m e]; cbn [trunc toward_zero]; try (split; [discriminate|tauto]).
  - split; [congruence|intros ->; auto].
  - set (q0 := if 0 <=? e then Zpos m * 2 ^ e else Zpos m / 2 ^ (- e)).
    assert (Q : forall q, 0 <= q -> q * 2 ^ Z.max 0 (- e) <= Zpos m * 2 ^ Z.max 0 e < (q + 1) * 2 ^ Z.max 0 (- e) <-> q = q0).
    { intros q Hq. unfold q0. destruct (Z.leb_spec 0 e).
      - replace (Z.max 0 (- e)) with 0 by lia. replace (Z.max 0 e) with e by lia. rewrite Z.pow_0_r. lia.
      - replace (Z.max 0 (- e)) with (- e) by lia. replace (Z.max 0 e) with 0 by lia. rewrite Z.pow_0_r, Z.mul_1_r.
        pose proof (pow2_pos (- e) ltac:(lia)). split.
        + intros B. apply Z.div_unique with (Zpos m - q * 2 ^ (- e)); lia.
        + intros ->. pose proof (Z.div_mod (Zpos m) (2 ^ (- e)) ltac:(lia)). pose proof (Z.mod_pos_bound (Zpos m) (2 ^ (- e)) ltac:(lia)). lia. }
    assert (P0 : 0 <= q0).
    { unfold q0. destruct (Z.leb_spec 0 e); [pose proof (pow2_pos e ltac:(lia)); lia|]. apply Z.div_pos; [lia|apply pow2_pos; lia]. }
    split.
    + intros E. injection E as <-. exists q0. split; [auto|]. split; [reflexivity|]. apply Q; auto.
    + intros (q & H1 & -> & B). apply Q in B; auto. rewrite B. reflexivity.
Qed.

Lemma float_int_spec from t x z : float_type from -> is_float from x -> int_type t ->
  conv_float_int from t x = Some z <-> toward_zero x z /\ fits t z.
Proof.
  intros F V T. rewrite float_int_agrees by auto. unfold to_int. rewrite <- trunc_spec. destruct (trunc x) as [y|]; [|split; [discriminate|intros (E & _); discriminate]].
  split.
  - destruct (Z.eqb_spec (cast t y) y) as [E|]; [|discriminate]. intros Q. injection Q as <-. split; auto. rewrite <- E. apply cast_fits. auto.
  - intros (E & Q). injection E as ->. rewrite cast_id by auto. rewrite Z.eqb_refl. auto.
Qed.
