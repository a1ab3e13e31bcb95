(** Bit patterns and values. *)
From Coq Require Import ZArith Lia Bool SpecFloat.
From Verif Require Import Bits FpProofs FloatModel FloatSpec FloatProofs.
Local Open Scope Z_scope.

Definition wf (F : fmt) : Prop := 1 <= mw F /\ 2 <= ew F /\ prec F < emx F.
Lemma format_wf F : format F -> wf F.
Proof. intros [-> | [-> | ->]]; repeat split; cbn; lia. Qed.

Lemma testbit_top x k : 0 <= k -> 0 <= x < 2 ^ (k + 1) -> Z.testbit x k = (2 ^ k <=? x).
Proof.
  intros Hk Hx. pose proof (pow2_pos k Hk). assert (E : 2 ^ (k + 1) = 2 * 2 ^ k) by (rewrite Z.pow_add_r by lia; lia).
  destruct (Z.leb_spec (2 ^ k) x) as [L|L].
  - apply Z.testbit_true; [lia|]. replace (x / 2 ^ k) with 1; [reflexivity|]. apply Z.div_unique with (x - 2 ^ k); lia.
  - apply Z.testbit_false; [lia|]. rewrite Z.div_small by lia. reflexivity.
Qed.

Lemma land_top x k : 0 <= k -> 0 <= x < 2 ^ (k + 1) -> Z.land x (2 ^ k) = if 2 ^ k <=? x then 2 ^ k else 0.
Proof.
  intros Hk Hx. rewrite <- (testbit_top x k Hk Hx). apply Z.bits_inj'. intros n Hn. rewrite Z.land_spec, Z.pow2_bits_eqb by lia.
  destruct (Z.eqb_spec k n) as [->|NE].
  - rewrite andb_true_r. destruct (Z.testbit x n) eqn:E; [now rewrite Z.pow2_bits_true by lia|now rewrite Z.bits_0].
  - rewrite andb_false_r. destruct (Z.testbit x k); [now rewrite Z.pow2_bits_false by lia|now rewrite Z.bits_0].
Qed.

Lemma land_low_add y k : 0 <= k -> 0 <= y < 2 ^ k -> Z.land y (2 ^ k) = 0.
Proof. intros Hk Hy. rewrite land_top; [|lia|rewrite Z.pow_add_r by lia; lia]. destruct (Z.leb_spec (2 ^ k) y); lia. Qed.
Lemma lxor_low y k : 0 <= k -> 0 <= y < 2 ^ k -> Z.lxor y (2 ^ k) = y + 2 ^ k.
Proof. intros Hk Hy. symmetry. apply Z.add_nocarry_lxor. apply land_low_add; auto. Qed.
Lemma lxor_high y k : 0 <= k -> 2 ^ k <= y < 2 ^ (k + 1) -> Z.lxor y (2 ^ k) = y - 2 ^ k.
Proof.
  intros Hk Hy. assert (E : 2 ^ (k + 1) = 2 * 2 ^ k) by (rewrite Z.pow_add_r by lia; lia).
  assert (B : 0 <= y - 2 ^ k < 2 ^ k) by lia. pose proof (lxor_low _ _ Hk B) as Q. replace (y - 2 ^ k + 2 ^ k) with y in Q by lia.
  rewrite <- Q at 1. rewrite Z.lxor_assoc, Z.lxor_nilpotent, Z.lxor_0_r. reflexivity.
Qed.

Section B.
Variable F : fmt.
Hypothesis W : wf F.
Notation P := (prec F).
Notation E := (emx F).
Notation em := (emin (prec F) (emx F)).
Notation V := (val (prec F) (emx F)).
Notation w1 := (width F - 1).

Lemma W1 : 1 < P. Proof. unfold prec. destruct W. lia. Qed.
Lemma W2 : P < E. Proof. apply W. Qed.
Lemma ew2 : 2 ^ ew F = 2 * E. Proof. unfold emx. rewrite <- Z.pow_succ_r by (destruct W; lia). f_equal. lia. Qed.
Lemma w1_eq : w1 = mw F + ew F. Proof. unfold width. lia. Qed.
Lemma pow_w1 : 2 ^ w1 = 2 ^ ew F * 2 ^ mw F. Proof. rewrite w1_eq, Z.pow_add_r by (destruct W as (? & ? & ?); lia). ring. Qed.
Lemma pow_w : 2 ^ width F = 2 * 2 ^ w1. Proof. rewrite <- Z.pow_succ_r by (rewrite w1_eq; destruct W as (? & ? & ?); lia). f_equal. lia. Qed.
Lemma pow_P : 2 ^ P = 2 * 2 ^ mw F. Proof. unfold prec. rewrite Z.pow_add_r by (destruct W; lia). lia. Qed.
Lemma pow_mw : 0 < 2 ^ mw F. Proof. apply pow2_pos. destruct W; lia. Qed.
Lemma pow_ew : 4 <= 2 ^ ew F. Proof. change 4 with (2 ^ 2). apply Z.pow_le_mono_r; destruct W as (? & ? & ?); lia. Qed.
Lemma top : E - P - em = 2 ^ ew F - 3. Proof. rewrite ew2. unfold emin. lia. Qed.
Lemma unit1_em : unit1 F = 2 ^ (- em). Proof. unfold unit1, emin, prec, emx. f_equal. lia. Qed.
Lemma em_neg : 0 <= - em. Proof. pose proof W1. pose proof W2. unfold emin. lia. Qed.
Lemma unit1_pos : 0 < unit1 F. Proof. rewrite unit1_em. apply pow2_pos, em_neg. Qed.

Lemma exponent_range x : 0 <= exponent F x < 2 ^ ew F.
Proof. apply Z.mod_pos_bound. pose proof pow_ew. lia. Qed.
Lemma fraction_range x : 0 <= fraction F x < 2 ^ mw F.
Proof. apply Z.mod_pos_bound. exact pow_mw. Qed.

(** The three fields. *)
Lemma fields x : pattern F x -> x = (if 2 ^ w1 <=? x then 2 ^ w1 else 0) + exponent F x * 2 ^ mw F + fraction F x.
Proof.
  intros [H1 H2]. rewrite pow_w in H2. pose proof pow_mw as M. pose proof pow_ew.
  unfold exponent, fraction. pose proof (Z.div_mod x (2 ^ mw F) ltac:(lia)) as D. pose proof (Z.mod_pos_bound x (2 ^ mw F) M).
  assert (Q : 0 <= x / 2 ^ mw F < 2 * 2 ^ ew F).
  { split; [apply Z.div_pos; lia|]. apply Z.div_lt_upper_bound; [lia|]. rewrite pow_w1 in H2. lia. }
  destruct (Z.leb_spec (2 ^ w1) x) as [L|L].
  - assert (2 ^ ew F <= x / 2 ^ mw F) by (apply Z.div_le_lower_bound; [lia|]; rewrite pow_w1 in L; lia).
    assert (Em : (x / 2 ^ mw F) mod 2 ^ ew F = x / 2 ^ mw F - 2 ^ ew F) by (symmetry; apply Z.mod_unique with 1; lia).
    rewrite Em, pow_w1. lia.
  - assert (x / 2 ^ mw F < 2 ^ ew F) by (apply Z.div_lt_upper_bound; [lia|]; rewrite pow_w1 in L; lia).
    rewrite (Z.mod_small (x / 2 ^ mw F)) by lia. lia.
Qed.

Lemma of_fields s e m : 0 <= e < 2 ^ ew F -> 0 <= m < 2 ^ mw F ->
  let x := sign_of F s + e * 2 ^ mw F + m in
  pattern F x /\ exponent F x = e /\ fraction F x = m /\ (2 ^ w1 <=? x) = s.
Proof.
  intros He Hm x. pose proof pow_mw as M. pose proof pow_ew. assert (EX : x = (if s then 2 ^ w1 else 0) + e * 2 ^ mw F + m) by (unfold x, sign_of; rewrite w1_eq; reflexivity). clearbody x.
  assert (B : 0 <= e * 2 ^ mw F + m < 2 ^ w1) by (rewrite pow_w1; nia).
  assert (PX : pattern F x) by (unfold pattern; rewrite pow_w, EX; destruct s; lia).
  assert (DX : x / 2 ^ mw F = (if s then 2 ^ ew F else 0) + e).
  { symmetry. apply Z.div_unique with m; [lia|]. rewrite EX; destruct s; rewrite ?pow_w1; ring. }
  repeat split; try apply PX.
  - unfold exponent. rewrite DX. destruct s; cbn [Z.add]; [|rewrite Z.mod_small; lia].
    symmetry. apply Z.mod_unique with 1; lia.
  - unfold fraction. symmetry. apply Z.mod_unique with ((if s then 2 ^ ew F else 0) + e); [lia|]. rewrite EX; destruct s; rewrite ?pow_w1; ring.
  - rewrite EX. destruct s; [apply Z.leb_le|apply Z.leb_gt]; lia.
Qed.

Lemma decode_sign x : pattern F x -> Z.testbit x (mw F + ew F) = (2 ^ w1 <=? x).
Proof.
  intros H. rewrite <- w1_eq. apply testbit_top; [rewrite w1_eq; destruct W as (? & ? & ?); lia|].
  unfold pattern in H. replace (w1 + 1) with (width F) by lia. exact H.
Qed.

Lemma magnitude_nonneg x : 0 <= magnitude F x.
Proof.
  pose proof (fraction_range x). pose proof pow_mw. unfold magnitude. destruct (Z.eqb_spec (exponent F x) 0); [lia|].
  pose proof (exponent_range x). pose proof (pow2_pos (exponent F x - 1) ltac:(lia)). nia.
Qed.

Lemma decode_val x : pattern F x -> finite F x -> V (decode F x) (units F x).
Proof.
  intros HP HF. unfold decode. rewrite decode_sign by exact HP. fold (exponent F x). fold (fraction F x).
  pose proof (exponent_range x) as RE. pose proof (fraction_range x) as RF. pose proof pow_P as PP. pose proof pow_mw as PM.
  pose proof top as T. pose proof pow_ew as PE. unfold finite in HF. unfold units, magnitude.
  destruct (Z.eqb_spec (exponent F x) 0) as [E0|E0].
  - destruct (fraction F x) as [|p|p] eqn:Em; try lia.
    + left. exists (2 ^ w1 <=? x). split; [reflexivity|]. destruct (2 ^ w1 <=? x); reflexivity.
    + right. exists (2 ^ w1 <=? x), p, 0. rewrite !Z.add_0_r. repeat split; try lia.
      rewrite Z.pow_0_r, Z.mul_1_r. destruct (2 ^ w1 <=? x); reflexivity.
  - destruct (Z.eqb_spec (exponent F x) (2 ^ ew F - 1)); [lia|].
    destruct (fraction F x + 2 ^ mw F) as [|p|p] eqn:Em; try lia.
    right. exists (2 ^ w1 <=? x), p, (exponent F x - 1). rewrite <- Em. split; [f_equal; lia|]. split.
    { rewrite (Z.add_comm (2 ^ mw F)). destruct (2 ^ w1 <=? x); reflexivity. }
    repeat split; try lia. right. unfold prec. replace (mw F + 1 - 1) with (mw F) by lia. lia.
Qed.

Lemma encode_finite y N : V y N -> pattern F (encode F y) /\ finite F (encode F y) /\ units F (encode F y) = N.
Proof.
  pose proof pow_mw as PM. pose proof pow_ew as PE. pose proof pow_P as PP. pose proof top as T.
  intros [(s & -> & ->)|(s & p & t & -> & -> & Ht & Hq & Hc)]; cbn [encode].
  - destruct (of_fields s 0 0 ltac:(lia) ltac:(lia)) as (A & B & C & D). rewrite Z.mul_0_l, !Z.add_0_r in *.
    split; [exact A|]. unfold finite, units, magnitude. rewrite B, C, D. split; [lia|]. cbn. destruct s; reflexivity.
  - assert (PM1 : 2 ^ (P - 1) = 2 ^ mw F) by (f_equal; unfold prec; lia).
    destruct (Z.ltb_spec (Zpos p) (2 ^ mw F)) as [L|L].
    + assert (t = 0) by (destruct Hc; lia). subst t.
      destruct (of_fields s 0 (Zpos p) ltac:(lia) ltac:(lia)) as (A & B & C & D). rewrite Z.mul_0_l, Z.add_0_r in *.
      split; [exact A|]. unfold finite, units, magnitude. rewrite B, C, D. split; [lia|].
      cbn [Z.eqb]. rewrite Z.pow_0_r, Z.mul_1_r. destruct s; reflexivity.
    + replace (em + t - em + 1) with (t + 1) by lia.
      destruct (of_fields s (t + 1) (Zpos p - 2 ^ mw F) ltac:(lia) ltac:(lia)) as (A & B & C & D).
      split; [exact A|]. unfold finite, units, magnitude. rewrite B, C, D. split; [lia|].
      destruct (Z.eqb_spec (t + 1) 0); [lia|]. replace (t + 1 - 1) with t by lia.
      replace (2 ^ mw F + (Zpos p - 2 ^ mw F)) with (Zpos p) by lia. destruct s; reflexivity.
Qed.

(** The sign bit of an encoded value. *)
Definition sgn (y : spec_float) : bool := match y with S754_zero s | S754_infinity s | S754_finite s _ _ => s | S754_nan => false end.
Lemma encode_sign y N : V y N -> (2 ^ w1 <=? encode F y) = sgn y.
Proof.
  pose proof pow_mw as PM. pose proof pow_ew as PE. pose proof pow_P as PP. pose proof top as T.
  intros [(s & -> & ->)|(s & p & t & -> & -> & Ht & Hq & Hc)]; cbn [encode sgn].
  - destruct (of_fields s 0 0 ltac:(lia) ltac:(lia)) as (A & B & C & D). rewrite Z.mul_0_l, !Z.add_0_r in D. exact D.
  - destruct (Z.ltb_spec (Zpos p) (2 ^ mw F)) as [L|L].
    + destruct (of_fields s 0 (Zpos p) ltac:(lia) ltac:(lia)) as (A & B & C & D). rewrite Z.mul_0_l, Z.add_0_r in D. exact D.
    + replace (em + t - em + 1) with (t + 1) by lia.
      exact (proj2 (proj2 (proj2 (of_fields s (t + 1) (Zpos p - 2 ^ mw F) ltac:(lia) ltac:(lia))))).
Qed.

(** Changing the sign bit of a nonnegative pattern. *)
Lemma flip x : 0 <= x < 2 ^ w1 -> exponent F (x + 2 ^ w1) = exponent F x /\ fraction F (x + 2 ^ w1) = fraction F x.
Proof.
  intros H. pose proof pow_mw as PM. pose proof pow_ew as PE. unfold exponent, fraction.
  assert (DX : (x + 2 ^ w1) / 2 ^ mw F = x / 2 ^ mw F + 2 ^ ew F) by (rewrite pow_w1, Z.div_add by lia; reflexivity).
  rewrite DX. split.
  - rewrite <- (Z.mul_1_l (2 ^ ew F)) at 1. rewrite Z.mod_add by lia. reflexivity.
  - rewrite pow_w1, Z.mod_add by lia. reflexivity.
Qed.
Lemma magnitude_flip x : 0 <= x < 2 ^ w1 -> magnitude F (x + 2 ^ w1) = magnitude F x.
Proof. intros H. destruct (flip x H) as [A B]. unfold magnitude. rewrite A, B. reflexivity. Qed.
Lemma units_flip x : 0 <= x < 2 ^ w1 -> units F (x + 2 ^ w1) = - units F x.
Proof.
  intros H. unfold units. rewrite magnitude_flip by exact H.
  replace (2 ^ w1 <=? x + 2 ^ w1) with true by (symmetry; apply Z.leb_le; lia).
  replace (2 ^ w1 <=? x) with false by (symmetry; apply Z.leb_gt; lia). reflexivity.
Qed.
Lemma w1_nonneg : 0 <= w1. Proof. rewrite w1_eq. destruct W as (? & ? & ?). lia. Qed.

(** The sign and the rest, as the code computes them. *)
Lemma split_sign x : pattern F x ->
  let sign := Z.land x (2 ^ w1) in let a := Z.lxor x sign in
  0 <= a < 2 ^ w1 /\ exponent F a = exponent F x /\ fraction F a = fraction F x /\ magnitude F a = magnitude F x /\ units F a = Z.abs (units F x) /\
  ((sign = 0 /\ x = a /\ (2 ^ w1 <=? x) = false) \/ (sign = 2 ^ w1 /\ x = a + 2 ^ w1 /\ (2 ^ w1 <=? x) = true)).
Proof.
  intros HP. pose proof w1_nonneg as N. unfold pattern in HP. pose proof pow_w as PW.
  cbv zeta. rewrite land_top; [|lia|replace (w1 + 1) with (width F) by lia; exact HP].
  destruct (Z.leb_spec (2 ^ w1) x) as [L|L].
  - rewrite lxor_high by (replace (w1 + 1) with (width F) by lia; lia).
    assert (B : 0 <= x - 2 ^ w1 < 2 ^ w1) by lia. destruct (flip _ B) as [A C]. pose proof (magnitude_flip _ B) as D. pose proof (units_flip _ B) as G.
    replace (x - 2 ^ w1 + 2 ^ w1) with x in * by lia. repeat split; auto; try lia.
    rewrite G, Z.abs_opp. unfold units. replace (2 ^ w1 <=? x - 2 ^ w1) with false by (symmetry; apply Z.leb_gt; lia).
    symmetry. apply Z.abs_eq, magnitude_nonneg.
  - rewrite Z.lxor_0_r. repeat split; auto; try lia.
    unfold units. replace (2 ^ w1 <=? x) with false by (symmetry; apply Z.leb_gt; lia). symmetry. apply Z.abs_eq, magnitude_nonneg.
Qed.

Lemma join_sign y sign : 0 <= y < 2 ^ w1 -> sign = 0 \/ sign = 2 ^ w1 ->
  pattern F (Z.lxor y sign) /\ exponent F (Z.lxor y sign) = exponent F y /\ fraction F (Z.lxor y sign) = fraction F y /\
  (2 ^ w1 <=? Z.lxor y sign) = negb (sign =? 0) /\ units F (Z.lxor y sign) = (if sign =? 0 then units F y else - units F y).
Proof.
  intros Hy Hs. pose proof w1_nonneg as N. pose proof pow_w as PW. pose proof (pow2_pos w1 N).
  destruct Hs as [-> | ->].
  - rewrite Z.lxor_0_r. unfold pattern. repeat split; try lia; apply Z.leb_gt; lia.
  - rewrite lxor_low by (auto; lia). destruct (flip y Hy) as [A B]. unfold pattern. replace (2 ^ w1 =? 0) with false by (symmetry; apply Z.eqb_neq; lia).
    repeat split; auto; try lia. apply units_flip; auto.
Qed.

Lemma fadd_val a b : pattern F a -> finite F a -> pattern F b -> finite F b ->
  let N := rounded P (units F a + units F b) in Z.abs N < 2 ^ (E - em) ->
  pattern F (fadd F a b) /\ finite F (fadd F a b) /\ units F (fadd F a b) = N /\
  (2 ^ w1 <=? fadd F a b) = sgn (SFadd P E (decode F a) (decode F b)).
Proof.
  intros Pa Fa Pb Fb N HB. pose proof (add_val P E W1 W2 _ _ _ _ (decode_val _ Pa Fa) (decode_val _ Pb Fb) HB) as VS.
  destruct (encode_finite _ _ VS) as (A & B & C). repeat split; auto; try apply A. apply (encode_sign _ _ VS).
Qed.

Lemma flt_val a b : pattern F a -> finite F a -> pattern F b -> finite F b -> flt F a b = (units F a <? units F b).
Proof.
  intros Pa Fa Pb Fb. unfold flt, SFltb. rewrite (cmp_val P E W1 _ _ _ _ (decode_val _ Pa Fa) (decode_val _ Pb Fb)). reflexivity.
Qed.
Lemma fge_val a b : pattern F a -> finite F a -> pattern F b -> finite F b -> fge F a b = (units F b <=? units F a).
Proof.
  intros Pa Fa Pb Fb. unfold fge, SFleb. rewrite (cmp_val P E W1 _ _ _ _ (decode_val _ Pb Fb) (decode_val _ Pa Fa)).
  unfold Z.leb. destruct (_ ?= _); reflexivity.
Qed.
Lemma feq_val a b : pattern F a -> finite F a -> pattern F b -> finite F b -> feq F a b = (units F a =? units F b).
Proof.
  intros Pa Fa Pb Fb. unfold feq, SFeqb. rewrite (cmp_val P E W1 _ _ _ _ (decode_val _ Pa Fa) (decode_val _ Pb Fb)).
  rewrite Z.eqb_compare. destruct (_ ?= _); reflexivity.
Qed.
End B.
