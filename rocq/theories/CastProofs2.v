(** Conversions of whole values. *)
From Coq Require Import ZArith Lia List Bool SpecFloat.
Import ListNotations.
From Verif Require Import Bits FoldModel FoldSpec FoldProofs CastModel CastSpec CastProofs.
Open Scope Z_scope.

Lemma basic_eqb_eq a b : basic_eqb a b = true <-> a = b.
Proof. split; [destruct a, b; cbn; congruence|intros <-; destruct a; reflexivity]. Qed.

Lemma represents_other n m t s v : t <> BBool -> represents n t s v -> represents m t s v.
Proof. destruct v; cbn; tauto. Qed.

(** converting to the same type does nothing *)
Lemma same_value n t s v w : represents n t s v -> converts t t v w -> w = v.
Proof.
  intros R C. pose proof (rep_class _ _ _ _ R) as CL. inversion C; subst; auto; try discriminate;
    try (destruct CL; discriminate); try (cbn in CL; destruct t; discriminate).
  - (* integers *)
    destruct R as (k' & K & I & _). match goal with H : width t = Some ?a |- _ => rewrite H in K; injection K as -> end.
    pose proof (size_pos _ _ ltac:(eassumption)) as P. f_equal. pose proof (pow2_pos k' ltac:(lia)).
    match goal with H : in_range _ _ (z + ?q * _) |- _ => rename H into J; rename q into q' end.
    destruct (is_signed t).
    + pose proof (signed_back k' _ P I) as A. pose proof (signed_back k' _ P J) as B. rewrite Z.mod_add in B by lia. congruence.
    + pose proof (unsigned_back k' _ I) as A. pose proof (unsigned_back k' _ J) as B. rewrite Z.mod_add in B by lia. congruence.
  - destruct CL. destruct t; discriminate.
  - destruct CL. destruct t; discriminate.
  - match goal with |- CF (fconvert ?a ?b _) = _ => assert (a = b) as -> by congruence end. rewrite fconvert_same. auto.
Qed.
Lemma same_right n t s v : lane_represents n t s v -> right_lane n t t v s.
Proof.
  destruct v as [v|]; cbn; auto. intros R w C. rewrite (same_value _ _ _ _ _ R C). auto.
Qed.

Lemma mapM_F2 {A B C} (f : A -> option B) (R : A -> C -> Prop) (Q : C -> B -> Prop) l vs :
  (forall s v, R s v -> exists s', f s = Some s' /\ Q v s') -> Forall2 R l vs ->
  exists l', mapM f l = Some l' /\ Forall2 Q vs l'.
Proof.
  intros H F. induction F as [|s v l vs X F IH]; [exists []; auto|].
  destruct (H _ _ X) as (s' & E & G). destruct IH as (l' & El & Gl). exists (s' :: l'). cbn. rewrite E, El. auto.
Qed.

(** the operation on one lane, given a bool of one bit *)
Lemma core from to : user_type from -> user_type to -> exists o, choose to from = Some o /\
  forall s v, lane_represents 1 from s v -> exists s', run_op o to s = Some s' /\ right_lane 1 from to v s' /\
    (to <> BBool -> forall n, right_lane n from to v s') /\
    (to = BBool -> s' = Poison \/ exists b, s' = bit b).
Proof.
  intros UF UT.
  assert (O : exists o, choose to from = Some o) by
    (unfold user_type in *; destruct to, from; cbn; eauto; congruence).
  destruct O as (o & O). exists o. split; [auto|]. intros s [v|] R; cbn [lane_represents] in R.
  - destruct (basic_eqb to BBool) eqn:E.
    + apply basic_eqb_eq in E as ->. destruct (bool_case _ _ _ UF R) as (o' & O' & X).
      assert (o' = o) as -> by congruence. exists (bit (truth v)). split; [auto|]. split; [|split; [congruence|eauto]].
      intros w C. rewrite (bool_value _ _ _ _ _ R C). cbn. split; [auto|]. destruct (truth v); reflexivity.
    + assert (NB : to <> BBool) by (intros ->; discriminate).
      destruct (lane_case _ _ _ _ UF UT NB R) as (o' & s' & O' & X & Y).
      assert (o' = o) as -> by congruence. exists s'. split; [auto|]. split; [|split; [|congruence]]; cbn; auto.
  - subst s. exists Poison. split; [|cbn; auto]. unfold run_op.
    destruct to, from; cbn in O |- *; try congruence; injection O as <-; reflexivity.
Qed.

Lemma pre mb from s v : mask_size mb -> lane_represents mb from s v ->
  exists s', (match from with BBool => switch_mask mb 1 s | _ => Some s end) = Some s' /\ lane_represents 1 from s' v.
Proof.
  intros M R. destruct (basic_eqb from BBool) eqn:E.
  - apply basic_eqb_eq in E as ->. destruct v as [v|]; cbn [lane_represents] in *.
    + apply mask_to_bit; auto.
    + subst s. exists Poison. auto.
  - assert (from <> BBool) by (intros ->; discriminate). exists s. split; [destruct from; auto; congruence|].
    destruct v; cbn in *; eauto using represents_other.
Qed.

Lemma post_right mb from v b : mask_size mb -> right_lane 1 from BBool v (bit b) ->
  right_lane mb from BBool v (IV mb (if b then 2 ^ mb - 1 else 0)).
Proof.
  intros M. destruct v as [v|]; cbn; auto. intros H w C. specialize (H w C). destruct w; cbn in *; auto.
  - destruct H as (_ & H). split; auto. unfold bit in H. destruct b, b0; congruence.
  - destruct H as (k & K & _). discriminate.
  - destruct H as (k & K & _). discriminate.
Qed.

Lemma mapM_Some (k : list sv) : mapM (fun s => Some s) k = Some k.
Proof. induction k as [|? ? IH]; cbn; [|rewrite IH]; auto. Qed.
Lemma pre_list mb from l l1 : mapM (fun s => match from with BBool => switch_mask mb 1 s | _ => Some s end) l = Some l1 ->
  match from with BBool => lift (switch_mask mb 1) (Vec l) | _ => Some (Vec l) end = Some (Vec l1).
Proof. destruct from; cbn [lift]; intros E; rewrite ?mapM_Some in E; try (injection E as <-; reflexivity). change (fun s : sv => switch_mask mb 1 s) with (switch_mask mb 1) in E. rewrite E. reflexivity. Qed.

Section Conv.
Variables (mb pw : Z) (W : nat) (from to : basic).
Hypothesis (M : mask_size mb) (UF : user_type from) (UT : user_type to).

Lemma conv_uniform s v : lane_represents 1 from s v -> exists s',
  conv_atomic mb pw W SUniform SUniform from to (Sc s) = Some (Sc s') /\ right_lane 1 from to v s' /\
  (to <> BBool -> forall n, right_lane n from to v s') /\ (to = BBool -> s' = Poison \/ exists b, s' = bit b).
Proof.
  intros R. destruct (core from to UF UT) as (o & O & H). destruct (H _ _ R) as (s' & E & X).
  exists s'. split; [|exact X]. unfold conv_atomic. cbn [is_varying andb negb].
  replace (match from with BBool => Some (Sc s) | _ => Some (Sc s) end) with (Some (Sc s)) by (destruct from; auto).
  cbn [bind]. rewrite O. cbn [bind lift]. rewrite E. cbn [option_map]. destruct to; auto.
Qed.

Lemma conv_uvec l vs : lanes_represent 1 from l vs -> exists l',
  conv_atomic mb pw W SUVec SUVec from to (Vec l) = Some (Vec l') /\ right_lanes 1 from to vs l'.
Proof.
  intros R. destruct (core from to UF UT) as (o & O & H).
  destruct (mapM_F2 (run_op o to) _ (right_lane 1 from to) l vs (fun s v X => let (s', Y) := H s v X in ex_intro _ s' (conj (proj1 Y) (proj1 (proj2 Y)))) R) as (l' & E & X).
  exists l'. split; [|exact X]. unfold conv_atomic. cbn [is_varying andb negb].
  replace (match from with BBool => Some (Vec l) | _ => Some (Vec l) end) with (Some (Vec l)) by (destruct from; auto).
  cbn [bind]. rewrite O. cbn [bind lift]. rewrite E. cbn [option_map]. destruct to; auto.
Qed.

Lemma conv_smear s v : lane_represents 1 from s v -> exists s',
  conv_atomic mb pw W SUniform SVarying from to (Sc s) = Some (Vec (repeat s' W)) /\ right_lane mb from to v s' /\
  (to = BBool -> s' = Poison \/ exists b : bool, s' = IV mb (if b then 2 ^ mb - 1 else 0)).
Proof.
  intros R. destruct (conv_uniform s v R) as (s' & E & X & Y & Z0).
  unfold conv_atomic in *. cbn [is_varying andb negb] in *.
  replace (match from with BBool => Some (Sc s) | _ => Some (Sc s) end) with (Some (Sc s)) in * by (destruct from; auto).
  cbn [bind] in *. destruct (basic_eqb to BBool) eqn:EB.
  - apply basic_eqb_eq in EB. subst to. rewrite E. destruct (Z0 eq_refl) as [-> |(b & ->)].
    + exists Poison. split; [|split; [|auto]].
      * destruct (negb (mb =? 1)); reflexivity.
      * destruct v as [v|]; cbn; auto. intros w C. specialize (X w C). destruct w; cbn in X; [destruct X; discriminate| |]; destruct X as (k & _ & X); [destruct X as (_ & X)|]; discriminate.
    + exists (IV mb (if b then 2 ^ mb - 1 else 0)). split; [|split; [apply post_right; auto|eauto]].
      destruct (Z.eqb_spec mb 1) as [E1|E1]; cbn [negb].
      * rewrite E1. cbn [bind smear]. unfold bit. destruct b; reflexivity.
      * cbn [bind lift]. rewrite bit_to_mask by auto. reflexivity.
  - assert (NB : to <> BBool) by (intros ->; discriminate).
    assert (E' : bind (choose to from) (fun o : op => lift (run_op o to) (Sc s)) = Some (Sc s')) by (destruct to; auto; congruence).
    exists s'. split; [|split; [apply Y; auto|congruence]].
    replace (match to with BBool => if negb (mb =? 1) then bind (bind (choose to from) (fun o : op => lift (run_op o to) (Sc s))) (lift (switch_mask mb mb)) else bind (choose to from) (fun o : op => lift (run_op o to) (Sc s)) | _ => bind (choose to from) (fun o : op => lift (run_op o to) (Sc s)) end)
      with (Some (Sc s')) by (destruct to; auto; congruence).
    cbn [bind smear]. destruct s' as [| |a|]; auto.
    (* a pointer is never the result *)
    exfalso. destruct (core from to UF UT) as (o & O & H). rewrite O in E'. cbn in E'.
    destruct s; destruct o; unfold run_op in E'; cbn in E';
      repeat match type of E' with context [match ?x with _ => _ end] => destruct x end; cbn in E'; try discriminate.
    all: injection E' as E'; subst; destruct v as [[]|]; cbn in R; intuition (try discriminate);
      repeat match goal with H : exists _, _ |- _ => destruct H end; intuition discriminate.
Qed.

Lemma conv_varying l vs : lanes_represent mb from l vs -> exists l',
  conv_atomic mb pw W SVarying SVarying from to (Vec l) = Some (Vec l') /\ right_lanes mb from to vs l' /\
  (to = BBool -> mapM (switch_mask mb mb) l' = Some l').
Proof.
  intros R. destruct (core from to UF UT) as (o & O & H).
  destruct (mapM_F2 (fun s => match from with BBool => switch_mask mb 1 s | _ => Some s end) _ (fun v s => lane_represents 1 from s v) l vs
             (fun s v => pre mb from s v M) R) as (l1 & E1 & R1).
  assert (E1' : match from with BBool => lift (switch_mask mb 1) (Vec l) | _ => Some (Vec l) end = Some (Vec l1)).
  { apply pre_list; auto. }
  assert (R1' : Forall2 (lane_represents 1 from) l1 vs).
  { clear -R1. induction R1; constructor; auto. }
  destruct (mapM_F2 (run_op o to) _ (fun v s' => right_lane 1 from to v s' /\ (to <> BBool -> forall n, right_lane n from to v s') /\
     (to = BBool -> s' = Poison \/ exists b, s' = bit b)) l1 vs (fun s v X => H s v X) R1') as (l2 & E2 & R2).
  unfold conv_atomic. cbn [is_varying andb negb]. rewrite E1'. cbn [bind]. rewrite O. cbn [bind lift]. rewrite E2. cbn [option_map].
  destruct (basic_eqb to BBool) eqn:EB.
  - apply basic_eqb_eq in EB. subst to. cbn [bind lift].
    assert (X : exists l', mapM (switch_mask mb mb) l2 = Some l' /\ right_lanes mb from BBool vs l' /\ mapM (switch_mask mb mb) l' = Some l').
    { clear -R2 M. unfold right_lanes. induction R2 as [|v s vs l2 (Y & _ & Z0) R2 IH]; [exists []; cbn; auto|].
      destruct IH as (l' & E & G & S). destruct (Z0 eq_refl) as [-> |(b & ->)].
      - exists (Poison :: l'). cbn. rewrite E, S. split; [auto|]. split; [|auto]. constructor; auto.
        destruct v as [v|]; cbn; auto. intros w C. specialize (Y w C). destruct w; cbn in Y; [destruct Y; discriminate| |]; destruct Y as (k & _ & Y); [destruct Y as (_ & Y)|]; discriminate.
      - exists (IV mb (if b then 2 ^ mb - 1 else 0) :: l'). cbn [mapM]. rewrite bit_to_mask, mask_to_mask, E, S by auto. split; [auto|]. split; [|auto].
        constructor; auto. apply post_right; auto. }
    destruct X as (l' & -> & G & S). exists l'. cbn. auto.
  - assert (NB : to <> BBool) by (intros ->; discriminate).
    exists l2. split; [destruct to; auto; congruence|]. split; [|congruence].
    unfold right_lanes. clear -R2 NB. induction R2 as [|v s vs l2 (Y & Z0 & _) R2 IH]; constructor; auto.
Qed.
End Conv.
