From Coq Require Import ZArith Lia Bool.
From Verif Require Import Bits SatModel SatSpec.
Local Open Scope Z_scope.
Ltac Zify.zify_post_hook ::= Z.div_mod_to_equations.

Lemma int_min_eq n : int_min n = - 2 ^ (n - 1).
Proof. unfold int_min, int_max; lia. Qed.

Lemma in_s_iff n x : signed_value n x <-> in_s n x.
Proof. unfold signed_value, in_s; lia. Qed.
Lemma in_u_iff n x : unsigned_value n x <-> in_u n x.
Proof. unfold unsigned_value, in_u; lia. Qed.

Lemma shiftr_msb n x : 0 < n -> in_u n x -> Z.shiftr x (n - 1) = b2z (2 ^ (n - 1) <=? x).
Proof.
  intros Hn Hx. rewrite Z.shiftr_div_pow2 by lia.
  pose proof (pow2_pos (n - 1) ltac:(lia)). pose proof (pow2_split n Hn).
  unfold in_u in Hx.
  destruct (Z.leb_spec (2 ^ (n - 1)) x); cbn [negb andb orb xorb b2z].
  - symmetry. apply (Z.div_unique x _ 1 (x - 2 ^ (n - 1))); lia.
  - apply Z.div_small; lia.
Qed.

(** the saturation constant: INT_MAX for nonnegative a, INT_MIN (as unsigned) otherwise *)
Lemma sat_const n a : 0 < n -> in_s n a ->
  wrapu n (Z.shiftr (wrapu n a) (n - 1) + int_max n)
  = if a <? 0 then 2 ^ (n - 1) else 2 ^ (n - 1) - 1.
Proof.
  intros Hn Ha. rewrite shiftr_msb by (auto using wrapu_range; apply wrapu_range; lia).
  pose proof (pow2_pos (n - 1) ltac:(lia)). pose proof (pow2_split n Hn).
  assert (E : (2 ^ (n - 1) <=? wrapu n a) = (a <? 0)).
  { rewrite wrapu_of_s by assumption. unfold in_s in Ha.
    zcase; lia. }
  rewrite E. unfold int_max. rewrite wrapu_id; destruct (a <? 0); cbn [b2z]; unfold in_u; lia.
Qed.

Lemma msb_s n a : 0 < n -> in_s n a -> Z.testbit (wrapu n a) (n - 1) = (a <? 0).
Proof.
  intros Hn Ha. rewrite msb_spec by (auto; apply wrapu_range; lia).
  pose proof (pow2_pos (n - 1) ltac:(lia)). pose proof (pow2_split n Hn).
  rewrite wrapu_of_s by assumption. unfold in_s in Ha.
  zcase; lia.
Qed.

Lemma msb_const n (s : bool) : 0 < n ->
  Z.testbit (if s then 2 ^ (n - 1) else 2 ^ (n - 1) - 1) (n - 1) = s.
Proof.
  intros Hn. pose proof (pow2_pos (n - 1) ltac:(lia)). pose proof (pow2_split n Hn).
  rewrite msb_spec by (auto; destruct s; unfold in_u; lia).
  destruct s; [apply Z.leb_le|apply Z.leb_gt]; lia.
Qed.

Lemma wraps_const n (s : bool) : 0 < n ->
  wraps n (if s then 2 ^ (n - 1) else 2 ^ (n - 1) - 1) = if s then - 2 ^ (n - 1) else 2 ^ (n - 1) - 1.
Proof.
  intros Hn. pose proof (pow2_pos (n - 1) ltac:(lia)). pose proof (pow2_split n Hn).
  rewrite wraps_of_u by (auto; destruct s; unfold in_u; lia).
  destruct s; [destruct (Z.ltb_spec (2 ^ (n - 1)) (2 ^ (n - 1)))|destruct (Z.ltb_spec (2 ^ (n - 1) - 1) (2 ^ (n - 1)))]; lia.
Qed.

(** msb of an n-bit sum *)
Lemma msb_wrap n x : 0 < n -> Z.testbit (wrapu n x) (n - 1) = (wraps n x <? 0).
Proof.
  intros Hn. rewrite <- wraps_neg_msb by (auto; apply wrapu_range; lia).
  rewrite wraps_wrapu by assumption. reflexivity.
Qed.

Lemma geb_ltb x : (x >=? 0) = negb (x <? 0).
Proof. rewrite Z.geb_leb. destruct (Z.leb_spec 0 x); destruct (Z.ltb_spec x 0); lia. Qed.

(** wraps of a value at most one period off *)
Lemma wraps_near n x : 0 < n -> - 3 * 2 ^ (n - 1) <= x < 3 * 2 ^ (n - 1) ->
  wraps n x = if x <? - 2 ^ (n - 1) then x + 2 ^ n
              else if x <? 2 ^ (n - 1) then x else x - 2 ^ n.
Proof.
  intros Hn Hx. pose proof (pow2_pos (n - 1) ltac:(lia)). pose proof (pow2_split n Hn).
  unfold wraps. destruct (Z.ltb_spec x (- 2 ^ (n - 1))); [|destruct (Z.ltb_spec x (2 ^ (n - 1)))].
  - rewrite <- (Z_mod_plus_full _ 1). rewrite Z.mod_small; lia.
  - rewrite Z.mod_small; lia.
  - rewrite <- (Z_mod_plus_full _ (-1)). rewrite Z.mod_small; lia.
Qed.

Lemma in_u_const n (s : bool) : 0 < n -> in_u n (if s then 2 ^ (n - 1) else 2 ^ (n - 1) - 1).
Proof.
  intros Hn. pose proof (pow2_pos (n - 1) ltac:(lia)). pose proof (pow2_split n Hn).
  destruct s; unfold in_u; lia.
Qed.

Lemma saturating_add_s_ok n a b : 0 < n -> in_s n a -> in_s n b ->
  saturating_add_s n a b = sat_signed n (a + b).
Proof.
  intros Hn Ha Hb. unfold saturating_add_s.
  rewrite wrapu_add, sat_const by assumption.
  pose proof (in_u_const n (a <? 0) Hn) as Hc.
  pose proof (wrapu_range n b ltac:(lia)) as Hbu.
  pose proof (wrapu_range n (a + b) ltac:(lia)) as Hr.
  rewrite geb_ltb, wraps_neg_msb.
  2: lia.
  2: { apply in_u_lor; [lia|apply in_u_lxor; auto; lia|apply wrapu_range; lia]. }
  rewrite Z.lor_spec, Z.lxor_spec, (testbit_wrapu n (Z.lnot _)), Z.lnot_spec, Z.lxor_spec by lia.
  rewrite msb_const, msb_s, msb_wrap by assumption.
  pose proof (pow2_pos (n - 1) ltac:(lia)). pose proof (pow2_split n Hn).
  unfold in_s in *.
  destruct (negb _) eqn:Et.
  - rewrite wraps_const by assumption. rewrite wraps_near in Et by lia.
    unfold sat_signed.
    zcase; lia.
  - rewrite wraps_wrapu by assumption. rewrite wraps_near in * by lia.
    unfold sat_signed.
    zcase; lia.
Qed.

Lemma saturating_sub_s_ok n a b : 0 < n -> in_s n a -> in_s n b ->
  saturating_sub_s n a b = sat_signed n (a - b).
Proof.
  intros Hn Ha Hb. unfold saturating_sub_s.
  rewrite wrapu_sub, sat_const by assumption.
  pose proof (in_u_const n (a <? 0) Hn) as Hc.
  pose proof (wrapu_range n b ltac:(lia)) as Hbu.
  pose proof (wrapu_range n (a - b) ltac:(lia)) as Hr.
  rewrite wraps_neg_msb.
  2: lia.
  2: { apply in_u_land; [lia|apply in_u_lxor; auto; lia|apply in_u_lxor; auto; lia]. }
  rewrite Z.land_spec, !Z.lxor_spec by lia.
  rewrite msb_const, msb_s, msb_wrap by assumption.
  pose proof (pow2_pos (n - 1) ltac:(lia)). pose proof (pow2_split n Hn).
  unfold in_s in *.
  destruct (andb _ _) eqn:Et.
  - rewrite wraps_const by assumption. rewrite wraps_near in Et by lia.
    unfold sat_signed.
    zcase; lia.
  - rewrite wraps_wrapu by assumption. rewrite wraps_near in * by lia.
    unfold sat_signed.
    zcase; lia.
Qed.

(** unsigned wrap of a value at most one period off *)
Lemma wrapu_near n x : 0 <= n -> - 2 ^ n <= x < 2 * 2 ^ n ->
  wrapu n x = if x <? 0 then x + 2 ^ n else if x <? 2 ^ n then x else x - 2 ^ n.
Proof.
  intros Hn Hx. pose proof (pow2_pos n Hn).
  unfold wrapu. destruct (Z.ltb_spec x 0); [|destruct (Z.ltb_spec x (2 ^ n))].
  - rewrite <- (Z_mod_plus_full _ 1). rewrite Z.mod_small; lia.
  - rewrite Z.mod_small; lia.
  - rewrite <- (Z_mod_plus_full _ (-1)). rewrite Z.mod_small; lia.
Qed.

Lemma wrapu_0 n : 0 <= n -> wrapu n 0 = 0.
Proof. intros. apply wrapu_id. unfold in_u. pose proof (pow2_pos n ltac:(lia)). lia. Qed.

Lemma or_mask_true n x : 0 <= n -> in_u n x -> Z.lor x (wrapu n (- b2z true)) = 2 ^ n - 1.
Proof. intros. change (- b2z true) with (-1). rewrite wrapu_minus1 by lia. apply lor_ones; trivial. Qed.
Lemma or_mask_false n x : 0 <= n -> Z.lor x (wrapu n (- b2z false)) = x.
Proof. intros. change (- b2z false) with 0. rewrite wrapu_0 by lia. apply Z.lor_0_r. Qed.
Lemma and_mask_true n x : 0 <= n -> in_u n x -> Z.land x (wrapu n (- b2z true)) = x.
Proof. intros. change (- b2z true) with (-1). rewrite wrapu_minus1 by lia. apply land_ones_id; trivial. Qed.
Lemma and_mask_false n x : 0 <= n -> Z.land x (wrapu n (- b2z false)) = 0.
Proof. intros. change (- b2z false) with 0. rewrite wrapu_0 by lia. apply Z.land_0_r. Qed.

Lemma saturating_add_u_ok n a b : 0 <= n -> in_u n a -> in_u n b ->
  saturating_add_u n a b = sat_unsigned n (a + b).
Proof.
  intros Hn Ha Hb. unfold saturating_add_u.
  pose proof (wrapu_range n (a + b) Hn) as Hr.
  unfold sat_unsigned. destruct (Z.ltb_spec (wrapu n (a + b)) a) as [H|H].
  - rewrite or_mask_true by assumption. unfold in_u in *.
    rewrite wrapu_near in H by lia.
    destruct (Z.ltb_spec (a + b) 0); destruct (Z.ltb_spec (a + b) (2 ^ n)); lia.
  - rewrite or_mask_false by assumption. unfold in_u in *.
    rewrite wrapu_near in * by lia.
    destruct (Z.ltb_spec (a + b) 0); destruct (Z.ltb_spec (a + b) (2 ^ n)); lia.
Qed.

Lemma saturating_sub_u_ok n a b : 0 <= n -> in_u n a -> in_u n b ->
  saturating_sub_u n a b = sat_unsigned n (a - b).
Proof.
  intros Hn Ha Hb. unfold saturating_sub_u.
  pose proof (wrapu_range n (a - b) Hn) as Hr.
  unfold sat_unsigned. destruct (Z.leb_spec (wrapu n (a - b)) a) as [H|H].
  - rewrite and_mask_true by assumption. unfold in_u in *.
    rewrite wrapu_near in * by lia.
    destruct (Z.ltb_spec (a - b) 0); destruct (Z.ltb_spec (a - b) (2 ^ n)); lia.
  - rewrite and_mask_false by assumption. unfold in_u in *.
    rewrite wrapu_near in * by lia.
    destruct (Z.ltb_spec (a - b) 0); destruct (Z.ltb_spec (a - b) (2 ^ n)); lia.
Qed.

Lemma lor_eq_0 x y : (Z.lor x y =? 0) = (x =? 0) && (y =? 0).
Proof.
  destruct (Z.eqb_spec (Z.lor x y) 0) as [E|E].
  - apply Z.lor_eq_0_iff in E as [-> ->]. reflexivity.
  - destruct (Z.eqb_spec x 0); destruct (Z.eqb_spec y 0); subst; trivial.
    exfalso; apply E; reflexivity.
Qed.

Lemma quot_range a b m : 0 <= m -> - m <= a <= m -> b <> 0 -> - m <= Z.quot a b <= m.
Proof.
  intros Hm Ha Hb.
  assert (Z.abs (Z.quot a b) <= Z.abs a).
  { rewrite <- Z.quot_abs by assumption. apply Z.quot_le_upper_bound; [lia|].
    assert (1 <= Z.abs b) by lia. nia. }
  lia.
Qed.

Lemma saturating_div_s_ok n a b : 0 < n -> in_s n a -> in_s n b -> b <> 0 ->
  saturating_div_s n a b = Some (sat_signed n (Z.quot a b)).
Proof.
  intros Hn Ha Hb Hb0. unfold saturating_div_s.
  rewrite (proj2 (Z.eqb_neq b 0)) by assumption. f_equal.
  rewrite lor_eq_0, int_min_eq.
  pose proof (pow2_pos (n - 1) ltac:(lia)). pose proof (pow2_split n Hn).
  set (m := Z.max n 32).
  assert (Hm : 2 ^ n <= 2 ^ m) by (apply Z.pow_le_mono_r; lia).
  assert (Hm1 : 2 ^ (n - 1) <= 2 ^ (m - 1)) by (apply Z.pow_le_mono_r; lia).
  pose proof (pow2_split m ltac:(lia)).
  assert (E1 : (wrapu m (b + 1) =? 0) = (b =? -1)).
  { rewrite wrapu_near by (unfold in_s in *; lia). unfold in_s in *.
    zcase; lia. }
  assert (E2 : (wrapu m (wrapu n a + - 2 ^ (n - 1)) =? 0) = (a =? - 2 ^ (n - 1))).
  { pose proof (wrapu_range n a ltac:(lia)) as Hu. unfold in_u in Hu.
    rewrite wrapu_near by lia. rewrite wrapu_of_s in * by assumption.
    unfold in_s in *.
    zcase; lia. }
  rewrite E1, E2. unfold in_s in *.
  destruct (Z.eqb_spec b (-1)) as [->|Hb1]; cbn [negb andb orb xorb b2z].
  - destruct (Z.eqb_spec a (- 2 ^ (n - 1))) as [->|Ha1]; cbn [negb andb orb xorb b2z].
    + change (-1) with (Z.opp 1). rewrite !Z.quot_opp_r, !Z.quot_1_r by lia.
      rewrite (wraps_id n (- 2 ^ (n - 1) + 1)) by (auto; unfold in_s; lia).
      rewrite wraps_id by (auto; unfold in_s; lia). unfold sat_signed; lia.
    + change (-1) with (Z.opp 1). rewrite !Z.quot_opp_r, !Z.quot_1_r by lia.
      rewrite Z.add_0_r. rewrite (wraps_id n a) by (auto; unfold in_s; lia).
      rewrite wraps_id by (auto; unfold in_s; lia). unfold sat_signed; lia.
  - rewrite Z.add_0_r. rewrite (wraps_id n a) by (auto; unfold in_s; lia).
    assert (R : - 2 ^ (n - 1) <= Z.quot a b <= 2 ^ (n - 1) - 1).
    { destruct (Z.eq_dec b 1) as [->|Hb2]; [rewrite Z.quot_1_r; lia|].
      assert (Hq : Z.abs (Z.quot a b) * Z.abs b <= Z.abs a).
      { rewrite <- Z.quot_abs by assumption. rewrite Z.quot_div_nonneg by lia.
        rewrite Z.mul_comm. apply Z.mul_div_le; lia. }
      assert (2 * Z.abs (Z.quot a b) <= Z.abs a) by nia. lia. }
    rewrite wraps_id by (auto; unfold in_s; lia). unfold sat_signed; lia.
Qed.

Lemma saturating_div_u_ok n a b : 0 <= n -> in_u n a -> in_u n b -> b <> 0 ->
  saturating_div_u n a b = Some (sat_unsigned n (a / b)).
Proof.
  intros Hn Ha Hb Hb0. unfold saturating_div_u.
  rewrite (proj2 (Z.eqb_neq b 0)) by assumption. f_equal.
  unfold in_u in *. assert (0 <= a / b <= a).
  { split; [apply Z.div_pos; lia|apply Z.div_le_upper_bound; nia]. }
  rewrite wrapu_id by (unfold in_u; lia). unfold sat_unsigned; lia.
Qed.

(** *** multiplication *)
Lemma shiftr_s_sign n x : 0 < n -> in_s n x -> Z.shiftr x (n - 1) = if x <? 0 then -1 else 0.
Proof.
  intros Hn Hx. rewrite Z.shiftr_div_pow2 by lia. unfold in_s in Hx.
  pose proof (pow2_pos (n - 1) ltac:(lia)).
  destruct (Z.ltb_spec x 0).
  - symmetry. apply (Z.div_unique x _ (-1) (x + 2 ^ (n - 1))); lia.
  - apply Z.div_small; lia.
Qed.

Lemma pow2_double n : 0 <= n -> 2 ^ (2 * n) = 2 ^ n * 2 ^ n.
Proof. intros. rewrite <- Z.pow_add_r by lia. f_equal; lia. Qed.

Lemma mul_in_2n n a b : 0 < n -> in_s n a -> in_s n b ->
  - (2 ^ (n - 1) * 2 ^ (n - 1)) <= a * b <= 2 ^ (n - 1) * 2 ^ (n - 1).
Proof.
  intros Hn Ha Hb. unfold in_s in *. nia.
Qed.

Lemma in_s_wider n x : 0 < n -> - (2 ^ (n - 1) * 2 ^ (n - 1)) <= x <= 2 ^ (n - 1) * 2 ^ (n - 1) ->
  in_s (2 * n) x.
Proof.
  intros Hn Hx. unfold in_s.
  assert (E : 2 ^ (2 * n - 1) = 2 * (2 ^ (n - 1) * 2 ^ (n - 1))).
  { rewrite <- Z.pow_add_r by lia. rewrite <- Z.pow_succ_r by lia. f_equal; lia. }
  pose proof (pow2_pos (n - 1) ltac:(lia)). nia.
Qed.

Lemma msb_lxor_s n a b : 0 < n -> in_s n a -> in_s n b ->
  Z.shiftr (wrapu n (Z.lxor a b)) (n - 1) = b2z (xorb (a <? 0) (b <? 0)).
Proof.
  intros Hn Ha Hb. rewrite shiftr_msb by (auto; apply wrapu_range; lia).
  rewrite <- msb_spec by (auto; apply wrapu_range; lia).
  rewrite testbit_wrapu, Z.lxor_spec by lia.
  rewrite <- (testbit_wrapu n a), <- (testbit_wrapu n b) by lia.
  rewrite !msb_s by assumption. reflexivity.
Qed.

Lemma saturating_mul_s_ok n a b : 0 < n -> in_s n a -> in_s n b ->
  saturating_mul_s n a b = sat_signed n (a * b).
Proof.
  intros Hn Ha Hb. unfold saturating_mul_s.
  pose proof (mul_in_2n n a b Hn Ha Hb) as Hab.
  rewrite (wraps_id (2 * n)) by (try lia; apply in_s_wider; assumption).
  rewrite msb_lxor_s by assumption.
  pose proof (pow2_pos (n - 1) ltac:(lia)) as HP. pose proof (pow2_split n Hn) as HS.
  set (p := a * b) in *.
  assert (Ehi : wraps n (Z.shiftr p n) = p / 2 ^ n).
  { rewrite Z.shiftr_div_pow2 by lia. apply wraps_id; [assumption|]. unfold in_s.
    split; [apply Z.div_le_lower_bound; nia|apply Z.div_lt_upper_bound; nia]. }
  rewrite Ehi.
  rewrite shiftr_s_sign by (auto; apply wraps_range; assumption).
  assert (Hc : (p / 2 ^ n =? (if wraps n p <? 0 then -1 else 0)) = true <-> in_s n p).
  { rewrite Z.eqb_eq.
    pose proof (Z.div_mod p (2 ^ n) ltac:(lia)) as Hdm.
    pose proof (Z.mod_pos_bound p (2 ^ n) ltac:(lia)) as Hmb.
    assert (Ew : wraps n p = if p mod 2 ^ n <? 2 ^ (n - 1) then p mod 2 ^ n else p mod 2 ^ n - 2 ^ n).
    { rewrite <- wraps_wrapu by assumption. rewrite wraps_of_u by (auto; apply wrapu_range; lia).
      reflexivity. }
    rewrite Ew. unfold in_s.
    set (q := p / 2 ^ n) in *. set (r := p mod 2 ^ n) in *.
    destruct (Z.ltb_spec r (2 ^ (n - 1))).
    - rewrite (proj2 (Z.ltb_ge r 0)) by lia. split; [intros E; rewrite E in Hdm; lia|].
      intros R. nia.
    - rewrite (proj2 (Z.ltb_lt (r - 2 ^ n) 0)) by lia. split; [intros E; rewrite E in Hdm; lia|].
      intros R. nia. }
  destruct (p / 2 ^ n =? _) eqn:Et; cbn [negb andb orb xorb b2z].
  - apply proj1 in Hc. specialize (Hc eq_refl). rewrite wraps_id by assumption.
    unfold sat_signed, in_s in *; lia.
  - assert (Hn' : ~ in_s n p) by (intros Hp; apply Hc in Hp; discriminate).
    unfold int_max, in_s, sat_signed in *.
    rewrite wrapu_id by (unfold in_u; destruct (xorb _ _); cbn [b2z]; lia).
    replace (b2z (xorb (a <? 0) (b <? 0)) + (2 ^ (n - 1) - 1))
      with (if xorb (a <? 0) (b <? 0) then 2 ^ (n - 1) else 2 ^ (n - 1) - 1)
      by (destruct (xorb _ _); cbn [b2z]; lia).
    rewrite wraps_const by assumption. subst p.
    destruct (Z.ltb_spec a 0); destruct (Z.ltb_spec b 0); cbn [negb andb orb xorb b2z]; nia.
Qed.

Lemma saturating_mul_u_ok n a b : 0 <= n -> in_u n a -> in_u n b ->
  saturating_mul_u n a b = sat_unsigned n (a * b).
Proof.
  intros Hn Ha Hb. unfold saturating_mul_u, in_u in *.
  pose proof (pow2_pos n Hn) as HP. pose proof (pow2_double n Hn) as HD.
  rewrite (wrapu_id (2 * n) (a * b)) by (unfold in_u; nia).
  rewrite Z.shiftr_div_pow2 by lia.
  assert (Hq : 0 <= a * b / 2 ^ n < 2 ^ n).
  { split; [apply Z.div_pos; nia|apply Z.div_lt_upper_bound; nia]. }
  rewrite (wrapu_id n (a * b / 2 ^ n)) by (unfold in_u; lia).
  pose proof (wrapu_range n (a * b) Hn) as Hr.
  unfold sat_unsigned. destruct (Z.eqb_spec (a * b / 2 ^ n) 0) as [E|E].
  - change (negb true) with false. rewrite or_mask_false by assumption.
    apply Z.div_small_iff in E; [|lia]. destruct E as [E|E]; [|lia].
    rewrite wrapu_id by (unfold in_u; lia). lia.
  - change (negb false) with true. rewrite or_mask_true by assumption.
    assert (2 ^ n <= a * b); [|lia].
    assert (1 <= a * b / 2 ^ n) by lia. pose proof (Z.mul_div_le (a * b) (2 ^ n) HP). nia.
Qed.

(** *** 64-bit multiplication *)
Lemma half_lo x : Z.land x (2 ^ 32 - 1) = x mod 2 ^ 32.
Proof. change (2 ^ 32 - 1) with (Z.ones 32). apply Z.land_ones. lia. Qed.

Lemma half_hi x : in_u 64 x -> wrapu 32 (Z.shiftr x 32) = x / 2 ^ 32.
Proof.
  intros Hx. rewrite Z.shiftr_div_pow2 by lia. apply wrapu_id. unfold in_u in *.
  split; [apply Z.div_pos; lia|apply Z.div_lt_upper_bound; lia].
Qed.

(** the common part of the two 64-bit multiplications: [hi*2^32] times [b0] plus [lo*b0] *)
Definition half_sum (lo hi b0 : Z) : Z :=
  saturating_add_u 64 (wrapu 64 (Z.shiftl (saturating_mul_u 32 b0 hi) 32)) (wrapu 64 (lo * b0)).

Lemma half_sum_ok lo hi b0 : in_u 32 lo -> in_u 32 hi -> in_u 32 b0 ->
  half_sum lo hi b0 = sat_unsigned 64 (sat_unsigned 32 (b0 * hi) * 2 ^ 32 + lo * b0).
Proof.
  intros Hl Hh Hb. unfold half_sum.
  rewrite saturating_mul_u_ok by (trivial; lia).
  rewrite Z.shiftl_mul_pow2 by lia.
  assert (0 <= sat_unsigned 32 (b0 * hi) <= 2 ^ 32 - 1) by (unfold sat_unsigned; lia).
  rewrite !wrapu_id by (unfold in_u in *; nia).
  apply saturating_add_u_ok; unfold in_u in *; nia.
Qed.

(** exact when the high product does not overflow 32 bits *)
Lemma half_sum_exact lo hi b0 : in_u 32 lo -> in_u 32 hi -> in_u 32 b0 -> b0 * hi < 2 ^ 32 ->
  half_sum lo hi b0 = sat_unsigned 64 ((hi * 2 ^ 32 + lo) * b0).
Proof.
  intros Hl Hh Hb Hp. rewrite half_sum_ok by assumption.
  assert (E : sat_unsigned 32 (b0 * hi) = b0 * hi) by (unfold sat_unsigned, in_u in *; nia).
  rewrite E. f_equal. ring.
Qed.

(** at least 2^63 otherwise *)
Lemma half_sum_big lo hi b0 : in_u 32 lo -> in_u 32 hi -> in_u 32 b0 -> 2 ^ 32 <= b0 * hi ->
  2 ^ 64 - 2 ^ 32 <= half_sum lo hi b0 <= 2 ^ 64 - 1.
Proof.
  intros Hl Hh Hb Hp. rewrite half_sum_ok by assumption.
  assert (E : sat_unsigned 32 (b0 * hi) = 2 ^ 32 - 1) by (unfold sat_unsigned, in_u in *; lia).
  rewrite E. unfold sat_unsigned, in_u in *.
  assert (0 <= lo * b0) by nia. lia.
Qed.

Lemma split32 x : in_u 64 x -> x = x / 2 ^ 32 * 2 ^ 32 + x mod 2 ^ 32
  /\ in_u 32 (x / 2 ^ 32) /\ in_u 32 (x mod 2 ^ 32).
Proof.
  intros Hx. unfold in_u in *. change (2 ^ 64) with (2 ^ 32 * 2 ^ 32) in Hx.
  pose proof (Z.div_mod x (2 ^ 32) ltac:(lia)).
  pose proof (Z.mod_pos_bound x (2 ^ 32) ltac:(lia)).
  pose proof (Z.div_pos x (2 ^ 32) ltac:(lia) ltac:(lia)).
  pose proof (Z.div_lt_upper_bound x (2 ^ 32) (2 ^ 32) ltac:(lia) ltac:(lia)).
  repeat split; try assumption; lia.
Qed.

(** magnitude computed by both 64-bit multiplications *)
Definition mag (a b : Z) : Z :=
  let a1 := a / 2 ^ 32 in let b1 := b / 2 ^ 32 in
  if negb (a1 =? 0) then half_sum (a mod 2 ^ 32) a1 (b mod 2 ^ 32)
  else if negb (b1 =? 0) then half_sum (b mod 2 ^ 32) b1 (a mod 2 ^ 32)
  else wrapu 64 (a * b).

Lemma mag_ok a b : in_u 64 a -> in_u 64 b -> a / 2 ^ 32 = 0 \/ b / 2 ^ 32 = 0 ->
  (mag a b = sat_unsigned 64 (a * b)) \/ (2 ^ 64 <= a * b /\ 2 ^ 64 - 2 ^ 32 <= mag a b <= 2 ^ 64 - 1).
Proof.
  intros Ha Hb H0. unfold mag.
  destruct (split32 a Ha) as (Ea & Ha1 & Ha0). destruct (split32 b Hb) as (Eb & Hb1 & Hb0).
  set (a1 := a / 2 ^ 32) in *. set (b1 := b / 2 ^ 32) in *.
  set (a0 := a mod 2 ^ 32) in *. set (b0 := b mod 2 ^ 32) in *.
  destruct (Z.eqb_spec a1 0) as [Ea1|Ea1]; cbn [negb andb orb xorb b2z].
  - destruct (Z.eqb_spec b1 0) as [Eb1|Eb1]; cbn [negb andb orb xorb b2z].
    + left. assert (a < 2 ^ 32) by (unfold in_u in *; lia). assert (b < 2 ^ 32) by (unfold in_u in *; lia).
      assert (0 <= a * b <= (2 ^ 32 - 1) * (2 ^ 32 - 1)) by (unfold in_u in *; nia).
      rewrite wrapu_id by (unfold in_u in *; lia). unfold sat_unsigned, in_u in *. lia.
    + replace a with a0 by lia.
      destruct (Z.lt_ge_cases (a0 * b1) (2 ^ 32)).
      * left. rewrite half_sum_exact by assumption. f_equal. rewrite <- Eb. ring.
      * right. split; [|apply half_sum_big; assumption].
        rewrite Eb. change (2 ^ 64) with (2 ^ 32 * 2 ^ 32). unfold in_u in *. nia.
  - assert (Eb1 : b1 = 0) by lia.
    replace b with b0 by lia.
    destruct (Z.lt_ge_cases (b0 * a1) (2 ^ 32)).
    + left. rewrite half_sum_exact by assumption. f_equal. rewrite <- Ea. ring.
    + right. split; [|apply half_sum_big; assumption].
      rewrite Ea. change (2 ^ 64) with (2 ^ 32 * 2 ^ 32). unfold in_u in *. nia.
Qed.

Lemma both_high a b : in_u 64 a -> in_u 64 b -> a / 2 ^ 32 <> 0 -> b / 2 ^ 32 <> 0 -> 2 ^ 64 <= a * b.
Proof.
  intros Ha Hb H1 H2. destruct (split32 a Ha) as (Ea & Ha1 & Ha0).
  destruct (split32 b Hb) as (Eb & Hb1 & Hb0). unfold in_u in *.
  assert (2 ^ 32 <= a) by nia. assert (2 ^ 32 <= b) by nia.
  change (2 ^ 64) with (2 ^ 32 * 2 ^ 32). nia.
Qed.

(** the 64-bit unsigned product: exact, except that an overflow detected only by the 32-bit
    partial product gives a value in the top 2^32 of the range instead of the maximum *)
Lemma saturating_mul_u64_eq a b : in_u 64 a -> in_u 64 b ->
  saturating_mul_u64 a b
  = if negb (a / 2 ^ 32 =? 0) && negb (b / 2 ^ 32 =? 0) then 2 ^ 64 - 1 else mag a b.
Proof.
  intros Ha Hb. unfold saturating_mul_u64. rewrite !half_lo, !half_hi by assumption.
  destruct (negb (a / 2 ^ 32 =? 0)) eqn:E1; destruct (negb (b / 2 ^ 32 =? 0)) eqn:E2; simpl;
    unfold mag; rewrite ?E1, ?E2; try reflexivity.
  unfold half_sum. rewrite (Z.mul_comm (a mod 2 ^ 32)). reflexivity.
Qed.

Lemma saturating_mul_u64_noov a b : in_u 64 a -> in_u 64 b -> a * b < 2 ^ 64 ->
  saturating_mul_u64 a b = a * b.
Proof.
  intros Ha Hb Hp. rewrite saturating_mul_u64_eq by assumption.
  destruct (Z.eqb_spec (a / 2 ^ 32) 0) as [E1|E1]; cbn [negb andb orb xorb b2z].
  - destruct (mag_ok a b Ha Hb ltac:(auto)) as [E|[E _]]; [|lia].
    rewrite E. unfold sat_unsigned, in_u in *. nia.
  - destruct (Z.eqb_spec (b / 2 ^ 32) 0) as [E2|E2]; cbn [negb andb orb xorb b2z].
    + destruct (mag_ok a b Ha Hb ltac:(auto)) as [E|[E _]]; [|lia].
      rewrite E. unfold sat_unsigned, in_u in *. nia.
    + pose proof (both_high a b Ha Hb E1 E2). lia.
Qed.

Lemma saturating_mul_u64_ov a b : in_u 64 a -> in_u 64 b -> 2 ^ 64 <= a * b ->
  2 ^ 64 - 2 ^ 32 <= saturating_mul_u64 a b <= 2 ^ 64 - 1.
Proof.
  intros Ha Hb Hp. rewrite saturating_mul_u64_eq by assumption.
  destruct (Z.eqb_spec (a / 2 ^ 32) 0) as [E1|E1]; cbn [negb andb orb xorb b2z].
  - destruct (mag_ok a b Ha Hb ltac:(auto)) as [E|[_ E]]; [|lia].
    rewrite E. unfold sat_unsigned, in_u in *. lia.
  - destruct (Z.eqb_spec (b / 2 ^ 32) 0) as [E2|E2]; cbn [negb andb orb xorb b2z].
    + destruct (mag_ok a b Ha Hb ltac:(auto)) as [E|[_ E]]; [|lia].
      rewrite E. unfold sat_unsigned, in_u in *. lia.
    + lia.
Qed.

Lemma abs64_ok x : in_s 64 x ->
  (if x =? int_min 64 then wrapu 64 (int_min 64)
   else wrapu 64 (if 0 <? x then x else wraps 64 (- x))) = Z.abs x.
Proof.
  intros Hx. unfold in_s in Hx. change (64 - 1) with 63 in Hx.
  rewrite int_min_eq. change (64 - 1) with 63.
  destruct (Z.eqb_spec x (- 2 ^ 63)) as [->|Hne].
  - reflexivity.
  - destruct (Z.ltb_spec 0 x).
    + rewrite wrapu_id; unfold in_u; lia.
    + rewrite wraps_id by (try lia; unfold in_s; change (64 - 1) with 63; lia).
      rewrite wrapu_id; unfold in_u; lia.
Qed.

Lemma saturating_mul_s64_ok a b : in_s 64 a -> in_s 64 b ->
  saturating_mul_s64 a b = sat_signed 64 (a * b).
Proof.
  intros Ha Hb. unfold saturating_mul_s64. cbv zeta.
  rewrite (abs64_ok a Ha), (abs64_ok b Hb).
  assert (Ha' : in_u 64 (Z.abs a)) by (unfold in_s, in_u in *; change (64 - 1) with 63 in *; lia).
  assert (Hb' : in_u 64 (Z.abs b)) by (unfold in_s, in_u in *; change (64 - 1) with 63 in *; lia).
  rewrite !half_lo, !half_hi by assumption.
  set (sign := if _ || _ then 1 else -1).
  assert (Hsign : (sign = 1 /\ a * b = Z.abs a * Z.abs b) \/ (sign = -1 /\ a * b = - (Z.abs a * Z.abs b))).
  { subst sign. destruct (Z.ltb_spec 0 a); destruct (Z.ltb_spec 0 b); destruct (Z.ltb_spec a 0);
      destruct (Z.ltb_spec b 0); cbn [negb andb orb xorb b2z]; nia. }
  assert (Hmag : forall r,
     (r = sat_unsigned 64 (Z.abs a * Z.abs b)) \/
     (2 ^ 64 <= Z.abs a * Z.abs b /\ 2 ^ 64 - 2 ^ 32 <= r <= 2 ^ 64 - 1) ->
     (if (sign <? 0) && (wrapu 64 (int_min 64) <=? r) then int_min 64
      else if (0 <? sign) && (int_max 64 <=? r) then int_max 64
      else wraps 64 (r * sign)) = sat_signed 64 (a * b)).
  { intros r Hr. change (wrapu 64 (int_min 64)) with (2 ^ 63).
    change (int_min 64) with (- 2 ^ 63). change (int_max 64) with (2 ^ 63 - 1).
    assert (0 <= Z.abs a * Z.abs b) by lia.
    unfold sat_unsigned, sat_signed in *. change (64 - 1) with 63.
    destruct Hsign as [[Es Ep]|[Es Ep]]; rewrite Es, Ep.
    - change (1 <? 0) with false. change (0 <? 1) with true. cbn [andb].
      rewrite Z.mul_1_r.
      destruct (Z.leb_spec (2 ^ 63 - 1) r); [lia|].
      rewrite wraps_id; [lia|lia|unfold in_s; change (64 - 1) with 63; lia].
    - change (-1 <? 0) with true. change (0 <? -1) with false. cbn [andb].
      destruct (Z.leb_spec (2 ^ 63) r); [lia|].
      rewrite wraps_id; [lia|lia|unfold in_s; change (64 - 1) with 63; lia]. }
  destruct (negb (Z.abs a / 2 ^ 32 =? 0) && negb (Z.abs b / 2 ^ 32 =? 0)) eqn:Eb.
  - apply andb_prop in Eb as [E1 E2]. apply negb_true_iff, Z.eqb_neq in E1, E2.
    pose proof (both_high _ _ Ha' Hb' E1 E2).
    change (int_min 64) with (- 2 ^ 63). change (int_max 64) with (2 ^ 63 - 1).
    unfold sat_signed. change (64 - 1) with 63.
    destruct Hsign as [[Es Ep]|[Es Ep]]; rewrite Es, Ep.
    + change (0 <? 1) with true. lia.
    + change (0 <? -1) with false. lia.
  - apply Hmag.
    assert (E0 : Z.abs a / 2 ^ 32 = 0 \/ Z.abs b / 2 ^ 32 = 0).
    { destruct (Z.eqb_spec (Z.abs a / 2 ^ 32) 0); destruct (Z.eqb_spec (Z.abs b / 2 ^ 32) 0);
        auto; simpl in Eb; discriminate. }
    pose proof (mag_ok _ _ Ha' Hb' E0) as Hm. unfold mag, half_sum in Hm.
    rewrite (Z.mul_comm (Z.abs b mod 2 ^ 32) (Z.abs a mod 2 ^ 32)) in Hm.
    exact Hm.
Qed.

(** *** m4 versions *)
Lemma novec_s_ok op n a b : 1 < n ->
  - 2 ^ n <= op a b < 2 ^ n -> novec_s op n a b = sat_signed n (op a b).
Proof.
  intros Hn Hop. unfold novec_s. rewrite int_min_eq. unfold int_max.
  pose proof (pow2_pos (n - 1) ltac:(lia)). pose proof (pow2_split n ltac:(lia)).
  assert (2 ^ n <= 2 ^ (2 * n - 1)) by (apply Z.pow_le_mono_r; lia).
  rewrite (wraps_id (2 * n)) by (try lia; unfold in_s; lia).
  rewrite wraps_id; try lia; unfold in_s, sat_signed;
    destruct (Z.ltb_spec (2 ^ (n - 1) - 1) (op a b)); destruct (Z.ltb_spec (op a b) (- 2 ^ (n - 1))); lia.
Qed.

Lemma novec_u_ok op n a b : 1 < n ->
  - 2 ^ n < op a b < 2 * 2 ^ n -> novec_u op n a b = sat_unsigned n (op a b).
Proof.
  intros Hn Hop. unfold novec_u.
  pose proof (pow2_pos n ltac:(lia)).
  assert (2 * 2 ^ n <= 2 ^ (2 * n - 1)).
  { rewrite <- Z.pow_succ_r by lia. apply Z.pow_le_mono_r; lia. }
  pose proof (pow2_split (2 * n) ltac:(lia)).
  rewrite wraps_wrapu by lia.
  rewrite (wraps_id (2 * n)) by (try lia; unfold in_s; lia).
  rewrite (wrapu_near (2 * n)) by lia.
  unfold sat_unsigned.
  destruct (Z.ltb_spec (op a b) 0).
  - rewrite wrapu_id; unfold in_u; lia.
  - destruct (Z.ltb_spec (op a b) (2 ^ (2 * n))); [|lia].
    destruct (Z.ltb_spec (2 ^ n - 1) (op a b)); rewrite wrapu_id; unfold in_u; lia.
Qed.
