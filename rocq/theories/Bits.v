(** Machine integers as [Z] with explicit wrap-around.

    LLVM's iN arithmetic is modular; ispc's (u)intN values are represented here by the
    mathematical integer they denote and every operation that can wrap says so
    ([wrapu]: reduce to 0 .. 2^N-1, [wraps]: two's complement value).  This file holds
    only definitions shared by the models and their elementary lemmas. *)
From Coq Require Import ZArith Lia Bool.
Local Open Scope Z_scope.

Ltac Zify.zify_post_hook ::= Z.div_mod_to_equations.

Definition wrapu (n x : Z) : Z := x mod 2 ^ n.
Definition wraps (n x : Z) : Z := (x + 2 ^ (n - 1)) mod 2 ^ n - 2 ^ (n - 1).

(** The value ranges of the uintN and intN types. *)
Definition in_u (n x : Z) : Prop := 0 <= x < 2 ^ n.
Definition in_s (n x : Z) : Prop := - 2 ^ (n - 1) <= x < 2 ^ (n - 1).

(** C's conversion of a bool to an integer. *)
Definition b2z (b : bool) : Z := if b then 1 else 0.

Definition clampZ (lo hi x : Z) : Z := Z.max lo (Z.min hi x).

Lemma pow2_split n : 0 < n -> 2 ^ n = 2 * 2 ^ (n - 1).
Proof. intros Hn. rewrite <- Z.pow_succ_r by lia. f_equal; lia. Qed.

Lemma pow2_pos n : 0 <= n -> 0 < 2 ^ n.
Proof. intros Hn; apply Z.pow_pos_nonneg; lia. Qed.

Lemma wrapu_range n x : 0 <= n -> in_u n (wrapu n x).
Proof.
  intros Hn. unfold in_u, wrapu. apply Z.mod_pos_bound, pow2_pos; lia.
Qed.

Lemma wrapu_id n x : in_u n x -> wrapu n x = x.
Proof. unfold in_u, wrapu; intros H. apply Z.mod_small; lia. Qed.

Lemma wraps_range n x : 0 < n -> in_s n (wraps n x).
Proof.
  intros Hn. unfold in_s, wraps.
  pose proof (pow2_split n Hn) as E.
  pose proof (Z.mod_pos_bound (x + 2 ^ (n - 1)) (2 ^ n) (pow2_pos n ltac:(lia))). lia.
Qed.

Lemma wraps_id n x : 0 < n -> in_s n x -> wraps n x = x.
Proof.
  unfold in_s, wraps; intros Hn H. pose proof (pow2_split n Hn) as E.
  rewrite Z.mod_small; lia.
Qed.

(** [wraps] in terms of the unsigned representative. *)
Lemma wraps_of_u n x : 0 < n -> in_u n x ->
  wraps n x = if x <? 2 ^ (n - 1) then x else x - 2 ^ n.
Proof.
  unfold in_u, wraps; intros Hn H. pose proof (pow2_split n Hn) as E.
  destruct (Z.ltb_spec x (2 ^ (n - 1))).
  - rewrite Z.mod_small; lia.
  - rewrite <- (Z_mod_plus_full _ (-1)). rewrite Z.mod_small; lia.
Qed.

Lemma wrapu_of_s n x : 0 < n -> in_s n x ->
  wrapu n x = if x <? 0 then x + 2 ^ n else x.
Proof.
  unfold in_s, wrapu; intros Hn H. pose proof (pow2_split n Hn) as E.
  destruct (Z.ltb_spec x 0).
  - rewrite <- (Z_mod_plus_full _ 1). rewrite Z.mod_small; lia.
  - rewrite Z.mod_small; lia.
Qed.

Lemma wraps_wrapu n x : 0 < n -> wraps n (wrapu n x) = wraps n x.
Proof.
  intros Hn. unfold wraps, wrapu. rewrite Zplus_mod_idemp_l. reflexivity.
Qed.

Lemma wrapu_wraps n x : 0 < n -> wrapu n (wraps n x) = wrapu n x.
Proof.
  intros Hn. unfold wraps, wrapu. rewrite Zminus_mod_idemp_l. f_equal; lia.
Qed.

Lemma wrapu_wrapu n x : wrapu n (wrapu n x) = wrapu n x.
Proof. unfold wrapu. apply Zmod_mod. Qed.

Lemma wrapu_add n x y : wrapu n (wrapu n x + wrapu n y) = wrapu n (x + y).
Proof. unfold wrapu. rewrite <- Zplus_mod. reflexivity. Qed.

Lemma wrapu_sub n x y : wrapu n (wrapu n x - wrapu n y) = wrapu n (x - y).
Proof. unfold wrapu. rewrite <- Zminus_mod. reflexivity. Qed.

Lemma wrapu_add_l n x y : wrapu n (wrapu n x + y) = wrapu n (x + y).
Proof. unfold wrapu. apply Zplus_mod_idemp_l. Qed.

Lemma wrapu_add_r n x y : wrapu n (x + wrapu n y) = wrapu n (x + y).
Proof. unfold wrapu. apply Zplus_mod_idemp_r. Qed.

Lemma wrapu_mul n x y : wrapu n (wrapu n x * wrapu n y) = wrapu n (x * y).
Proof. unfold wrapu. rewrite <- Zmult_mod. reflexivity. Qed.

Lemma wraps_congr n x y : wrapu n x = wrapu n y -> wraps n x = wraps n y.
Proof.
  unfold wraps, wrapu. intros H. f_equal.
  rewrite Zplus_mod, H, <- Zplus_mod. reflexivity.
Qed.

(** ** Bits *)

(** The sign bit decides the sign. *)
Lemma msb_spec n x : 0 < n -> in_u n x -> Z.testbit x (n - 1) = (2 ^ (n - 1) <=? x).
Proof.
  intros Hn [H0 H1]. pose proof (pow2_split n Hn) as E.
  rewrite Z.testbit_eqb by lia.
  pose proof (pow2_pos (n - 1) ltac:(lia)) as Hp.
  destruct (Z.leb_spec (2 ^ (n - 1)) x).
  - assert (Hd : x / 2 ^ (n - 1) = 1).
    { symmetry. apply (Z.div_unique x _ 1 (x - 2 ^ (n - 1))); lia. }
    rewrite Hd. reflexivity.
  - rewrite Z.div_small by lia. reflexivity.
Qed.

Lemma wraps_neg_msb n x : 0 < n -> in_u n x -> (wraps n x <? 0) = Z.testbit x (n - 1).
Proof.
  intros Hn Hx. rewrite msb_spec, wraps_of_u by assumption.
  unfold in_u in Hx. pose proof (pow2_pos n ltac:(lia)).
  destruct (Z.ltb_spec x (2 ^ (n - 1))); destruct (Z.leb_spec (2 ^ (n - 1)) x); try lia;
    destruct (Z.ltb_spec x 0); destruct (Z.ltb_spec (x - 2 ^ n) 0); lia.
Qed.

Lemma testbit_wrapu n x i : 0 <= n -> 0 <= i < n -> Z.testbit (wrapu n x) i = Z.testbit x i.
Proof. intros. unfold wrapu. rewrite Z.mod_pow2_bits_low by lia. reflexivity. Qed.

Lemma testbit_wrapu_high n x i : 0 <= n -> n <= i -> Z.testbit (wrapu n x) i = false.
Proof. intros. unfold wrapu. rewrite Z.mod_pow2_bits_high by lia. reflexivity. Qed.

Lemma in_u_testbit n x : 0 <= n -> 0 <= x -> (forall i, n <= i -> Z.testbit x i = false) -> in_u n x.
Proof.
  intros Hn Hx Hb. assert (E : wrapu n x = x).
  { apply Z.bits_inj'. intros i Hi. destruct (Z.lt_ge_cases i n).
    - apply testbit_wrapu; lia.
    - rewrite testbit_wrapu_high, Hb by lia. reflexivity. }
  rewrite <- E. apply wrapu_range; lia.
Qed.

Lemma in_u_high n x i : in_u n x -> 0 <= n <= i -> Z.testbit x i = false.
Proof.
  intros Hx Hi. rewrite <- (wrapu_id n x Hx). apply testbit_wrapu_high; lia.
Qed.

Lemma in_u_lor n x y : 0 <= n -> in_u n x -> in_u n y -> in_u n (Z.lor x y).
Proof.
  intros Hn Hx Hy. apply in_u_testbit; [lia|apply Z.lor_nonneg; unfold in_u in *; lia|].
  intros i Hi. rewrite Z.lor_spec, (in_u_high n x), (in_u_high n y) by (trivial; lia). reflexivity.
Qed.

Lemma in_u_land n x y : 0 <= n -> in_u n x -> in_u n y -> in_u n (Z.land x y).
Proof.
  intros Hn Hx Hy. apply in_u_testbit; [lia|apply Z.land_nonneg; unfold in_u in *; lia|].
  intros i Hi. rewrite Z.land_spec, (in_u_high n x) by (trivial; lia). reflexivity.
Qed.

Lemma in_u_lxor n x y : 0 <= n -> in_u n x -> in_u n y -> in_u n (Z.lxor x y).
Proof.
  intros Hn Hx Hy. apply in_u_testbit; [lia|apply Z.lxor_nonneg; unfold in_u in *; lia|].
  intros i Hi. rewrite Z.lxor_spec, (in_u_high n x), (in_u_high n y) by (trivial; lia). reflexivity.
Qed.

Lemma in_u_mono n m x : 0 <= n <= m -> in_u n x -> in_u m x.
Proof.
  intros Hnm [H0 H1]. split; [lia|].
  assert (2 ^ n <= 2 ^ m) by (apply Z.pow_le_mono_r; lia). lia.
Qed.

Lemma wrapu_minus1 n : 0 <= n -> wrapu n (-1) = 2 ^ n - 1.
Proof.
  intros Hn. unfold wrapu. pose proof (pow2_pos n Hn).
  rewrite <- (Z_mod_plus_full _ 1). rewrite Z.mod_small; lia.
Qed.

Lemma lor_ones n x : 0 <= n -> in_u n x -> Z.lor x (2 ^ n - 1) = 2 ^ n - 1.
Proof.
  intros Hn Hx. replace (2 ^ n - 1) with (Z.ones n) by (rewrite Z.ones_equiv; lia).
  apply Z.bits_inj'. intros i Hi. rewrite Z.lor_spec.
  destruct (Z.lt_ge_cases i n).
  - rewrite Z.ones_spec_low by lia. apply orb_true_r.
  - rewrite (in_u_high n x) by (trivial; lia). reflexivity.
Qed.

Lemma land_ones_id n x : 0 <= n -> in_u n x -> Z.land x (2 ^ n - 1) = x.
Proof.
  intros Hn Hx. replace (2 ^ n - 1) with (Z.ones n) by (rewrite Z.ones_equiv; lia).
  rewrite Z.land_ones by lia. apply wrapu_id, Hx.
Qed.

Lemma clampZ_id lo hi x : lo <= x <= hi -> clampZ lo hi x = x.
Proof. unfold clampZ; lia. Qed.

(** Case analysis on every integer comparison of the goal and context. *)
Ltac zcase_step :=
  match goal with
  | |- context [Z.ltb ?x ?y] => destruct (Z.ltb_spec x y)
  | |- context [Z.leb ?x ?y] => destruct (Z.leb_spec x y)
  | |- context [Z.eqb ?x ?y] => destruct (Z.eqb_spec x y)
  | H : context [Z.ltb ?x ?y] |- _ => destruct (Z.ltb_spec x y)
  | H : context [Z.leb ?x ?y] |- _ => destruct (Z.leb_spec x y)
  | H : context [Z.eqb ?x ?y] |- _ => destruct (Z.eqb_spec x y)
  end; cbn [negb andb orb xorb b2z] in *.
Ltac zcase := cbn [negb andb orb xorb b2z] in *; repeat zcase_step; try discriminate.
