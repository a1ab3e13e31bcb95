From Coq Require Import ZArith NArith Bool Ascii String Lia Permutation List.
From Verif Require Import TypesModel TypesSpec TypesProofs TypesProofs2 TypesProofs3.
Import ListNotations.
Local Open Scope Z_scope.

(** ** Costs of conversions between atomic types *)

Definition weight (step : nat) : Z :=
  match step with 1%nat => 0 | 4%nat => 1 | 6%nat => 8 | 7%nat => 16 | 8%nat => 64 | 9%nat => 128 | _ => 192 end.

Lemma basic_eqb_refl x : basic_eqb x x = true.
Proof. now apply basic_eqb_eq. Qed.

Lemma can_convert_atomic v c x w d y : plain_var v -> plain_var w -> basic_eqb x TVoid = false -> basic_eqb y TVoid = false ->
  basic_eqb y x && var_eqb w v = false ->
  can_convert (Atomic v c x) (Atomic w d y) = negb (var_eqb w Uniform && var_eqb v Varying).
Proof.
  intros V W X Y NE. unfold can_convert, conv_step at 1. cbn [equal is_const]. rewrite NE, andb_false_r.
  assert (is_void (Atomic v c x) = false) as -> by (destruct x; try reflexivity; discriminate X).
  assert (is_void (Atomic w d y) = false) as -> by (destruct y; try reflexivity; discriminate Y).
  cbn [is_func is_array andb is_uniform is_varying var_of is_ref is_pointer is_struct].
  destruct V as [->| ->], W as [->| ->]; cbn [var_eqb soa_width N.eqb negb orb andb with_const equal is_const var_of] in *; try reflexivity;
    rewrite ?NE, ?andb_false_r; cbn; reflexivity.
Qed.

Lemma arg_cost_atomic n v c x w d y con : plain_var v -> plain_var w -> x <> TVoid -> y <> TVoid ->
  arg_cost n (Arg (Atomic v c x) false con) (Atomic w d y) =
  match documented_step widening_basic (Atomic v c x) (Atomic w d y) with
  | Some s => Some (weight s * (if con then Z.of_nat n + 1 else (Z.of_nat n + 1) * 512))
  | None => None
  end.
Proof.
  intros V W X0 Y0.
  assert (X : basic_eqb x TVoid = false) by (destruct x; auto; congruence).
  assert (Y : basic_eqb y TVoid = false) by (destruct y; auto; congruence).
  unfold arg_cost. cbv zeta. cbn [a_type a_null a_constant andb ref_target with_const].
  set (s := if con then Z.of_nat n + 1 else (Z.of_nat n + 1) * 512). clearbody s.
  unfold documented_step. rewrite X, Y. cbn [orb].
  cbn [equal is_const orb andb]. unfold widening. cbn [is_varying is_uniform var_of with_var].
  unfold is_varying, is_uniform. cbn [var_of].
  assert (S1 : basic_eqb y x = basic_eqb x y) by apply Nat.eqb_sym.
  destruct (basic_eqb x y) eqn:B.
  - apply basic_eqb_eq in B. subst y. rewrite ?basic_eqb_refl.
    destruct V as [->| ->], W as [->| ->]; cbn [var_eqb andb Bool.eqb orb]; rewrite ?andb_true_r, ?andb_false_r.
    + destruct (Bool.eqb c d); cbn [weight]; f_equal; lia.
    + rewrite equal_refl. cbn [weight]. f_equal; lia.
    + rewrite can_convert_atomic; unfold plain_var; auto. rewrite andb_false_r. reflexivity.
    + destruct (Bool.eqb c d); cbn [weight]; f_equal; lia.
  - destruct V as [->| ->], W as [->| ->]; cbn [var_eqb andb Bool.eqb orb]; rewrite ?andb_true_r, ?andb_false_r; cbn [andb].
    + destruct (widening_basic x y); [cbn [weight]; f_equal; lia|].
      rewrite can_convert_atomic; unfold plain_var; auto; try (now rewrite S1); cbn [var_eqb andb negb weight]; f_equal; lia.
    + cbn [is_const Bool.eqb orb andb equal var_eqb]. rewrite ?B. cbn [andb].
      destruct (widening_basic x y); [cbn [weight]; f_equal; lia|].
      rewrite can_convert_atomic; unfold plain_var; auto; try (now rewrite S1); cbn [var_eqb andb negb weight]; f_equal; lia.
    + rewrite can_convert_atomic; unfold plain_var; auto; try (now rewrite S1).
    + destruct (widening_basic x y); [cbn [weight]; f_equal; lia|].
      rewrite can_convert_atomic; unfold plain_var; auto; try (now rewrite S1); cbn [var_eqb andb negb weight]; f_equal; lia.
Qed.

Lemma documented_step_values widens f t s : documented_step widens f t = Some s -> In s [1; 4; 6; 7; 8; 9; 10]%nat.
Proof.
  unfold documented_step. destruct f; try discriminate. destruct t; try discriminate.
  destruct (basic_eqb b TVoid || basic_eqb b0 TVoid); [discriminate|].
  destruct v, v0; try discriminate; destruct (basic_eqb b b0); try destruct (Bool.eqb _ _); try destruct (widens _ _); intros [= <-]; cbn; auto 10.
Qed.

(* the same call: one more step costs more *)
Lemma atomic_order n t p q k m s r con : operand t -> operand p -> operand q ->
  documented_step widening_basic t p = Some s -> documented_step widening_basic t q = Some r ->
  arg_cost n (Arg t false con) p = Some k -> arg_cost n (Arg t false con) q = Some m -> (s < r)%nat -> k < m.
Proof.
  intros Ot Op Oq Ds Dr Ck Cm L.
  pose proof (documented_step_values _ _ _ _ Ds) as Is. pose proof (documented_step_values _ _ _ _ Dr) as Ir.
  assert (NV : forall a b z, documented_step widening_basic a b = Some z ->
            exists v c x w d y, a = Atomic v c x /\ b = Atomic w d y /\ x <> TVoid /\ y <> TVoid).
  { intros a b z. unfold documented_step. destruct a; try discriminate. destruct b; try discriminate.
    destruct (basic_eqb b0 TVoid || basic_eqb b TVoid) eqn:E; [discriminate|]. apply orb_false_iff in E as [E1 E2]. intros _.
    do 6 eexists. split; [reflexivity|]. split; [reflexivity|]. split; intros ->; discriminate. }
  destruct (NV _ _ _ Ds) as (v & c & x & w & d & y & -> & -> & X & Y).
  destruct (NV _ _ _ Dr) as (v' & c' & x' & w' & d' & y' & [= <- <- <-] & -> & _ & Y').
  cbn [operand] in *.
  rewrite arg_cost_atomic in Ck by assumption. rewrite arg_cost_atomic in Cm by assumption. rewrite Ds in Ck. rewrite Dr in Cm.
  injection Ck as <-. injection Cm as <-.
  assert (WS : weight s < weight r).
  { cbn in Is, Ir. decompose [or] Is; subst; decompose [or] Ir; subst; try contradiction; try lia; cbn; lia. }
  destruct con; nia.
Qed.

(** ** Varying arguments *)

Lemma uniform_with_const k t : is_uniform (with_const k t) = is_uniform t.
Proof.
  unfold is_uniform. induction t using ty_ind'; cbn; auto. now destruct (Bool.eqb c k).
Qed.
Lemma varying_with_const k t : is_varying (with_const k t) = is_varying t.
Proof.
  unfold is_varying. induction t using ty_ind'; cbn; auto. now destruct (Bool.eqb c k).
Qed.
Lemma uniform_ref t : is_uniform (ref_target t) = is_uniform t.
Proof. destruct t; reflexivity. Qed.
Lemma varying_ref t : is_varying (ref_target t) = is_varying t.
Proof. destruct t; reflexivity. Qed.

Lemma arg_cost_var n a p k : a_null a = false -> is_varying (a_type a) = true ->
  is_array (ref_target (a_type a)) = false -> is_ref (ref_target (a_type a)) = false ->
  arg_cost n a p = Some k -> is_uniform p = false.
Proof.
  intros N V A R. unfold arg_cost. cbv zeta. rewrite N. cbn [andb].
  pose proof (varying_not_uniform _ V) as U.
  destruct (equal false (a_type a) p) eqn:E; [rewrite <- (equal_uniform _ _ _ E); auto|].
  assert (G : forall o s, (if equal true (ref_target (a_type a)) p then Some (o + 1 * s)
        else if widening (with_const false (ref_target (a_type a))) (with_const false p) then Some (o + 8 * s)
        else if is_varying p && is_uniform (a_type a) then
          if equal false (with_var Varying (with_const false (ref_target (a_type a)))) (with_const false p) then Some (o + 16 * s)
          else if widening (with_var Varying (with_const false (ref_target (a_type a)))) (with_const false p) then Some (o + 128 * s)
          else if can_convert (with_const false (ref_target (a_type a))) (with_const false p) then Some (o + 128 * s + 64 * s) else None
        else if can_convert (with_const false (ref_target (a_type a))) (with_const false p) then Some (o + 64 * s) else None) = Some k -> is_uniform p = false).
  { intros o s. destruct (equal true (ref_target (a_type a)) p) eqn:E1.
    { intros _. rewrite <- (equal_uniform _ _ _ E1), uniform_ref. assumption. }
    destruct (widening _ _) eqn:W.
    { intros _. unfold widening in W. destruct (with_const false (ref_target (a_type a))) eqn:X; try discriminate. destruct (with_const false p) eqn:Y; try discriminate.
      apply andb_true_iff in W as [W _]. apply eqb_prop in W.
      rewrite <- (uniform_with_const false p), Y. unfold is_uniform. cbn [var_of]. rewrite <- W.
      change (var_eqb v Uniform) with (is_uniform (Atomic v c b)). rewrite <- X, uniform_with_const, uniform_ref. assumption. }
    rewrite U, andb_false_r. destruct (can_convert _ _) eqn:C; [|discriminate]. intros _.
    rewrite <- (uniform_with_const false p). apply (can_convert_var (with_const false (ref_target (a_type a)))); auto.
    - rewrite varying_with_const, varying_ref. assumption.
    - clear - A R. destruct (ref_target (a_type a)) as [| |v c s f q b| | | | | ]; try discriminate A; try discriminate R; try reflexivity.
      cbn. destruct (Bool.eqb c false); reflexivity. }
  set (s := if a_constant a then Z.of_nat n + 1 else (Z.of_nat n + 1) * 512). set (o := match a_type a with Ref _ _ => 2 * s | _ => 0 end).
  destruct (is_ref p) eqn:P.
  - destruct p; try discriminate. match goal with |- (if ?b then None else _) = _ -> _ => destruct b end; [discriminate|].
    destruct (equal false (with_const false (ref_target (a_type a))) _) eqn:E1; [|discriminate]. intros _.
    pose proof (equal_uniform _ _ _ E1) as Q. rewrite !uniform_with_const, !uniform_ref in Q. now rewrite <- Q.
  - destruct p; try discriminate; exact (G o s).
Qed.

(** Integer conversions that lose nothing are never dear. *)
Lemma widening_includes x y lo hi lo' hi' : int_range x = Some (lo, hi) -> int_range y = Some (lo', hi') -> lo' <= lo -> hi <= hi' ->
  x <> y -> widening_basic x y = true.
Proof.
  intros X Y L H N. destruct x; cbn in X; try discriminate; destruct y; cbn in Y; try discriminate; try congruence; try reflexivity;
    injection X as <- <-; injection Y as <- <-; exfalso; vm_compute in L, H; congruence.
Qed.
