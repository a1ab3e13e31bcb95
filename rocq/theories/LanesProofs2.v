(** Proofs about the cross-lane operations: float reductions, reduce_equal, scans, permutations,
    packed stores and loads, AoS/SoA. *)
From Coq Require Import ZArith Lia List Bool SpecFloat.
From Verif Require Import Bits LanesTables LanesModel LanesSpec LanesProofs.
Import ListNotations.
Local Open Scope Z_scope.

(** ** Float minimum and maximum *)

(** [SFltb] on non-NaN values orders by this key. *)
Definition fle (a b : spec_float) : Prop := SFltb b a = false.

Ltac fcases :=
  repeat match goal with
  | s : bool |- _ => destruct s
  end; cbn in *; try reflexivity; try discriminate; try tauto.

Lemma pcmp_refl (p : positive) : Pos.compare p p = Eq.
Proof. apply Pos.compare_refl. Qed.

Lemma fle_refl a : fle a a.
Proof.
  unfold fle, SFltb. destruct a as [[]|[]| |[] m e]; cbn; try reflexivity;
  rewrite Z.compare_refl; change (Pos.compare_cont Eq m m) with (Pos.compare m m); rewrite pcmp_refl; reflexivity.
Qed.

Lemma fle_trans a b c : a <> S754_nan -> b <> S754_nan -> c <> S754_nan ->
  fle a b -> fle b c -> fle a c.
Proof.
  unfold fle, SFltb.
  destruct a as [sa|sa| |sa ma ea], b as [sb|sb| |sb mb eb], c as [sc|sc| |sc mc ec];
    intros Na Nb Nc; try (exfalso; congruence); clear Na Nb Nc;
    try destruct sa; try destruct sb; try destruct sc; cbn; try congruence;
    repeat match goal with
    | |- context [Pos.compare_cont Eq ?x ?y] => change (Pos.compare_cont Eq x y) with (Pos.compare x y)
    | |- context [Z.compare ?x ?y] => destruct (Z.compare_spec x y)
    | |- context [Pos.compare ?x ?y] => destruct (Pos.compare_spec x y)
    | |- context [CompOpp ?x] => progress cbn [CompOpp]
    end; cbn; subst; try congruence; try lia.
Qed.

Lemma fle_total a b : a <> S754_nan -> b <> S754_nan -> fle a b \/ fle b a.
Proof.
  unfold fle, SFltb.
  destruct a as [sa|sa| |sa ma ea], b as [sb|sb| |sb mb eb];
    intros Na Nb; try (exfalso; congruence); clear Na Nb;
    try destruct sa; try destruct sb; cbn; auto;
    repeat match goal with
    | |- context [Pos.compare_cont Eq ?x ?y] => change (Pos.compare_cont Eq x y) with (Pos.compare x y)
    | |- context [Z.compare ?x ?y] => destruct (Z.compare_spec x y)
    | |- context [Pos.compare ?x ?y] => destruct (Pos.compare_spec x y)
    end; cbn; subst; auto; try lia.
Qed.

Lemma fisnan_true a : fisnan a = true <-> a = S754_nan.
Proof. destruct a; cbn; split; congruence. Qed.
Lemma fisnan_false a : fisnan a = false <-> a <> S754_nan.
Proof. destruct a; cbn; split; congruence. Qed.

Lemma SFcompare_swap a b : SFcompare b a = match SFcompare a b with
                                            | Some c => Some (CompOpp c) | None => None end.
Proof.
  destruct a as [sa|sa| |sa ma ea], b as [sb|sb| |sb mb eb]; try destruct sa; try destruct sb; cbn; trivial;
  change (Pos.compare_cont Eq ma mb) with (Pos.compare ma mb);
  change (Pos.compare_cont Eq mb ma) with (Pos.compare mb ma);
  rewrite (Z.compare_antisym ea eb), (Pos.compare_antisym ma mb);
  destruct (Z.compare ea eb), (Pos.compare ma mb); reflexivity.
Qed.

Lemma minnum_spec a b : a <> S754_nan -> b <> S754_nan ->
  let r := minnum a b in (r = a \/ r = b) /\ fle r a /\ fle r b.
Proof.
  intros Ha Hb. unfold minnum. rewrite (proj2 (fisnan_false a) Ha), (proj2 (fisnan_false b) Hb).
  cbv zeta. pose proof (fle_refl a) as Ra. pose proof (fle_refl b) as Rb.
  pose proof (SFcompare_swap a b) as Sw. unfold fle, SFltb in *.
  destruct (SFcompare a b) as [[]|] eqn:E; cbn [CompOpp] in Sw; rewrite ?Sw, ?E; auto.
Qed.

Lemma maxnum_spec a b : a <> S754_nan -> b <> S754_nan ->
  let r := maxnum a b in (r = a \/ r = b) /\ fle a r /\ fle b r.
Proof.
  intros Ha Hb. unfold maxnum. rewrite (proj2 (fisnan_false a) Ha), (proj2 (fisnan_false b) Hb).
  cbv zeta. pose proof (fle_refl a) as Ra. pose proof (fle_refl b) as Rb.
  pose proof (SFcompare_swap a b) as Sw. unfold fle, SFltb in *.
  destruct (SFcompare a b) as [[]|] eqn:E; cbn [CompOpp] in Sw; rewrite ?Sw, ?E; auto.
Qed.

Lemma inf_top x : x <> S754_nan -> fle x (S754_infinity false).
Proof. intros H. destruct x as [[]|[]| |[] m e]; cbn in *; try congruence; reflexivity. Qed.
Lemma inf_bottom x : x <> S754_nan -> fle (S754_infinity true) x.
Proof. intros H. destruct x as [[]|[]| |[] m e]; cbn in *; try congruence; reflexivity. Qed.
Lemma inf_top_max x : x <> S754_nan -> fle (S754_infinity false) x -> x = S754_infinity false.
Proof. intros H F. destruct x as [[]|[]| |[] m e]; cbn in *; try congruence; unfold fle, SFltb in *; cbn in *; congruence. Qed.
Lemma inf_bottom_min x : x <> S754_nan -> fle x (S754_infinity true) -> x = S754_infinity true.
Proof. intros H F. destruct x as [[]|[]| |[] m e]; cbn in *; try congruence; unfold fle, SFltb in *; cbn in *; congruence. Qed.

(** One step of the minimum keeps: either only NaN seen so far, or a number that bounds all the
    numbers seen and is infinity or one of them. *)
Lemma minnum_nan_l b : minnum S754_nan b = b.
Proof. reflexivity. Qed.
Lemma minnum_nan_r a : a <> S754_nan -> minnum a S754_nan = a.
Proof. intros H. unfold minnum. rewrite (proj2 (fisnan_false a) H). reflexivity. Qed.
Lemma maxnum_nan_l b : maxnum S754_nan b = b.
Proof. reflexivity. Qed.
Lemma maxnum_nan_r a : a <> S754_nan -> maxnum a S754_nan = a.
Proof. intros H. unfold maxnum. rewrite (proj2 (fisnan_false a) H). reflexivity. Qed.

Lemma nan_dec (x : spec_float) : x = S754_nan \/ x <> S754_nan.
Proof. destruct x; auto; right; congruence. Qed.

Definition fmin_inv (l : list spec_float) (acc : spec_float) : Prop :=
  (acc = S754_nan /\ forall y, In y l -> y = S754_nan) \/
  (acc <> S754_nan /\ (forall y, In y l -> y <> S754_nan -> fle acc y) /\ In acc (S754_infinity false :: l)).

Lemma fmin_inv_step l acc y : fmin_inv l acc -> fmin_inv (l ++ [y]) (minnum acc y).
Proof.
  intros H. destruct (nan_dec acc) as [->|Na].
  - rewrite minnum_nan_l. destruct H as [[_ H]|[H _]]; [|congruence].
    destruct (nan_dec y) as [->|Ny].
    + left. split; [reflexivity|]. intros z Hz. apply in_app_or in Hz. destruct Hz as [Hz|[<-|[]]]; auto.
    + right. split; [assumption|]. split.
      * intros z Hz Nz. apply in_app_or in Hz. destruct Hz as [Hz|[<-|[]]]; [exfalso; auto|apply fle_refl].
      * right. apply in_or_app. right. left. reflexivity.
  - destruct H as [[H _]|(_ & B & I)]; [congruence|].
    destruct (nan_dec y) as [->|Ny].
    + rewrite minnum_nan_r by assumption. right. split; [assumption|]. split.
      * intros z Hz Nz. apply in_app_or in Hz. destruct Hz as [Hz|[<-|[]]]; [auto|congruence].
      * destruct I as [I|I]; [left; assumption|right; apply in_or_app; left; assumption].
    + destruct (minnum_spec acc y Na Ny) as ([E|E] & L1 & L2); rewrite E in *; right;
        (split; [assumption|]); split.
      * intros z Hz Nz. apply in_app_or in Hz. destruct Hz as [Hz|[<-|[]]]; auto.
      * destruct I as [I|I]; [left; assumption|right; apply in_or_app; left; assumption].
      * intros z Hz Nz. apply in_app_or in Hz. destruct Hz as [Hz|[<-|[]]]; [|apply fle_refl].
        apply (fle_trans y acc z); auto.
      * right. apply in_or_app. right. left. reflexivity.
Qed.

Lemma fmin_inv_inf l acc : fmin_inv l acc -> fmin_inv l (minnum acc (S754_infinity false)).
Proof.
  intros H. destruct (nan_dec acc) as [->|Na].
  - rewrite minnum_nan_l. destruct H as [[_ H]|[H _]]; [|congruence].
    right. split; [discriminate|]. split; [|left; reflexivity]. intros y Hy Ny. exfalso; auto.
  - destruct H as [[H _]|(_ & B & I)]; [congruence|].
    destruct (minnum_spec acc (S754_infinity false) Na ltac:(discriminate)) as ([E|E] & L1 & L2); rewrite E in *.
    + right. auto.
    + right. split; [discriminate|]. split; [|left; reflexivity].
      intros y Hy Ny. specialize (B y Hy Ny).
      rewrite <- (inf_top_max acc Na L1). assumption.
Qed.

Lemma reduce_min_f_ok W mask x : (0 < W)%nat ->
  (exists l, In l (running W mask) /\ x l <> S754_nan) ->
  is_fmin (running_values W mask x) (reduce_min_f W mask x).
Proof.
  intros HW (l0 & Hl0 & N0).
  assert (H : fmin_inv (running_values W mask x) (reduce_min_f W mask x)).
  { unfold reduce_min_f.
    apply (vreduce_ind _ W _ (fun k acc => fmin_inv (running_values k mask x) acc)); trivial.
    - unfold running_values, running; cbn [seq filter]. destruct (mask O) eqn:M; cbn [map].
      + destruct (nan_dec (x O)) as [->|N].
        * left. split; [reflexivity|]. intros y [<-|[]]; reflexivity.
        * right. split; [assumption|]. split; [intros y [<-|[]] _; apply fle_refl|right; left; reflexivity].
      + right. split; [discriminate|]. split; [intros y []|left; reflexivity].
    - intros k acc Hk IH. unfold running_values in *. rewrite running_succ, map_app.
      destruct (mask k) eqn:M; cbn [map].
      + apply fmin_inv_step, IH.
      + rewrite app_nil_r. apply fmin_inv_inf, IH. }
  assert (I0 : In (x l0) (running_values W mask x)) by (apply in_map; assumption).
  destruct H as [[E A]|(N & B & I)].
  - exfalso. apply N0, A, I0.
  - split; [|split; [assumption|exact B]].
    destruct I as [I|I]; [|assumption].
    rewrite <- I in *. rewrite <- (inf_top_max (x l0) N0 (B _ I0 N0)). assumption.
Qed.

Definition fmax_inv (l : list spec_float) (acc : spec_float) : Prop :=
  (acc = S754_nan /\ forall y, In y l -> y = S754_nan) \/
  (acc <> S754_nan /\ (forall y, In y l -> y <> S754_nan -> fle y acc) /\ In acc (S754_infinity true :: l)).

Lemma fmax_inv_step l acc y : fmax_inv l acc -> fmax_inv (l ++ [y]) (maxnum acc y).
Proof.
  intros H. destruct (nan_dec acc) as [->|Na].
  - rewrite maxnum_nan_l. destruct H as [[_ H]|[H _]]; [|congruence].
    destruct (nan_dec y) as [->|Ny].
    + left. split; [reflexivity|]. intros z Hz. apply in_app_or in Hz. destruct Hz as [Hz|[<-|[]]]; auto.
    + right. split; [assumption|]. split.
      * intros z Hz Nz. apply in_app_or in Hz. destruct Hz as [Hz|[<-|[]]]; [exfalso; auto|apply fle_refl].
      * right. apply in_or_app. right. left. reflexivity.
  - destruct H as [[H _]|(_ & B & I)]; [congruence|].
    destruct (nan_dec y) as [->|Ny].
    + rewrite maxnum_nan_r by assumption. right. split; [assumption|]. split.
      * intros z Hz Nz. apply in_app_or in Hz. destruct Hz as [Hz|[<-|[]]]; [auto|congruence].
      * destruct I as [I|I]; [left; assumption|right; apply in_or_app; left; assumption].
    + destruct (maxnum_spec acc y Na Ny) as ([E|E] & L1 & L2); rewrite E in *; right;
        (split; [assumption|]); split.
      * intros z Hz Nz. apply in_app_or in Hz. destruct Hz as [Hz|[<-|[]]]; auto.
      * destruct I as [I|I]; [left; assumption|right; apply in_or_app; left; assumption].
      * intros z Hz Nz. apply in_app_or in Hz. destruct Hz as [Hz|[<-|[]]]; [|apply fle_refl].
        apply (fle_trans z acc y); auto.
      * right. apply in_or_app. right. left. reflexivity.
Qed.

Lemma fmax_inv_inf l acc : fmax_inv l acc -> fmax_inv l (maxnum acc (S754_infinity true)).
Proof.
  intros H. destruct (nan_dec acc) as [->|Na].
  - rewrite maxnum_nan_l. destruct H as [[_ H]|[H _]]; [|congruence].
    right. split; [discriminate|]. split; [|left; reflexivity]. intros y Hy Ny. exfalso; auto.
  - destruct H as [[H _]|(_ & B & I)]; [congruence|].
    destruct (maxnum_spec acc (S754_infinity true) Na ltac:(discriminate)) as ([E|E] & L1 & L2); rewrite E in *.
    + right. auto.
    + right. split; [discriminate|]. split; [|left; reflexivity].
      intros y Hy Ny. specialize (B y Hy Ny).
      rewrite <- (inf_bottom_min acc Na L1). assumption.
Qed.

Lemma reduce_max_f_ok W mask x : (0 < W)%nat ->
  (exists l, In l (running W mask) /\ x l <> S754_nan) ->
  is_fmax (running_values W mask x) (reduce_max_f W mask x).
Proof.
  intros HW (l0 & Hl0 & N0).
  assert (H : fmax_inv (running_values W mask x) (reduce_max_f W mask x)).
  { unfold reduce_max_f.
    apply (vreduce_ind _ W _ (fun k acc => fmax_inv (running_values k mask x) acc)); trivial.
    - unfold running_values, running; cbn [seq filter]. destruct (mask O) eqn:M; cbn [map].
      + destruct (nan_dec (x O)) as [->|N].
        * left. split; [reflexivity|]. intros y [<-|[]]; reflexivity.
        * right. split; [assumption|]. split; [intros y [<-|[]] _; apply fle_refl|right; left; reflexivity].
      + right. split; [discriminate|]. split; [intros y []|left; reflexivity].
    - intros k acc Hk IH. unfold running_values in *. rewrite running_succ, map_app.
      destruct (mask k) eqn:M; cbn [map].
      + apply fmax_inv_step, IH.
      + rewrite app_nil_r. apply fmax_inv_inf, IH. }
  assert (I0 : In (x l0) (running_values W mask x)) by (apply in_map; assumption).
  destruct H as [[E A]|(N & B & I)].
  - exfalso. apply N0, A, I0.
  - split; [|split; [assumption|exact B]].
    destruct I as [I|I]; [|assumption].
    rewrite <- I in *. rewrite <- (inf_bottom_min (x l0) N0 (B _ I0 N0)). assumption.
Qed.

(** ** Float sums *)

Lemma suz_refl a : same_up_to_zero_sign a a.
Proof. left; reflexivity. Qed.

Lemma SFadd_suz p e a a' y : same_up_to_zero_sign a a' ->
  same_up_to_zero_sign (SFadd p e a y) (SFadd p e a' y).
Proof.
  intros [->|(s & t & -> & ->)]; [apply suz_refl|].
  destruct y as [sy|sy| |sy m x]; cbn.
  - right. destruct s, t, sy; cbn; eauto.
  - apply suz_refl.
  - apply suz_refl.
  - apply suz_refl.
Qed.

Lemma SFadd_zero p e a s : same_up_to_zero_sign (SFadd p e a (S754_zero s)) a.
Proof.
  destruct a as [sa|sa| |sa m x]; cbn; try apply suz_refl.
  right. destruct sa, s; cbn; eauto.
Qed.

Lemma suz_trans a b c : same_up_to_zero_sign a b -> same_up_to_zero_sign b c -> same_up_to_zero_sign a c.
Proof.
  intros [->|(s & t & -> & ->)] H; [assumption|].
  destruct H as [<-|(s' & t' & E & ->)]; right; eauto.
Qed.

Lemma suz_sym a b : same_up_to_zero_sign a b -> same_up_to_zero_sign b a.
Proof. intros [->|(s & t & -> & ->)]; [left; reflexivity|right; eauto]. Qed.

Lemma fold_SFadd_suz p e l : forall a a', same_up_to_zero_sign a a' ->
  same_up_to_zero_sign (fold_left (SFadd p e) l a) (fold_left (SFadd p e) l a').
Proof.
  induction l as [|y l IH]; intros a a' H; cbn [fold_left]; [assumption|].
  apply IH, SFadd_suz, H.
Qed.

Lemma fadd_masked p e (mask : gang bool) (x : gang spec_float) l : forall a a', same_up_to_zero_sign a a' ->
  same_up_to_zero_sign
    (fold_left (fun acc i => SFadd p e acc (if mask i then x i else S754_zero false)) l a)
    (fold_left (SFadd p e) (map x (filter mask l)) a').
Proof.
  induction l as [|i l IH]; intros a a' H; cbn [fold_left filter]; [assumption|].
  destruct (mask i); cbn [map fold_left].
  - apply IH, SFadd_suz, H.
  - apply IH. eapply suz_trans; [apply SFadd_zero|assumption].
Qed.

Lemma reduce_add_f_ok p e W mask x :
  same_up_to_zero_sign (reduce_add_f p e W mask x) (float_total p e (running_values W mask x)).
Proof. apply fadd_masked. right; eauto. Qed.

(** ** reduce_equal *)

Lemma reduce_equal_ok {A} (eqb : A -> A -> bool) W mask x :
  (W <= 64)%nat -> (forall a b, eqb a b = eqb b a) -> (forall a b c, eqb a b = true -> eqb b c = true -> eqb a c = true) ->
  forall f rest, running W mask = f :: rest ->
  (reduce_equal eqb W mask x = Equal (x f) /\ all_equal eqb (running_values W mask x)) \/
  (reduce_equal eqb W mask x = NotEqual /\ ~ all_equal eqb (running_values W mask x)).
Proof.
  intros HW Hs Ht f rest E. unfold reduce_equal.
  pose proof (first_running W mask HW) as F. rewrite E in F. rewrite F.
  assert (Hf : In f (running W mask)) by (rewrite E; left; reflexivity).
  pose proof (proj1 (in_running _ _ _) Hf) as [Hf1 Hf2].
  unfold extract.
  replace (0 <=? Z.of_nat f) with true by (symmetry; apply Z.leb_le; lia).
  replace (Z.of_nat f <? Z.of_nat W) with true by (symmetry; apply Z.ltb_lt; lia).
  cbn [andb]. rewrite Nat2Z.id, b_all_spec by assumption.
  destruct (forallb (fun l => eqb (x l) (x f) || negb (mask l)) (seq 0 W)) eqn:G.
  - left. split; [reflexivity|]. rewrite forallb_forall in G.
    assert (K : forall l, In l (running W mask) -> eqb (x l) (x f) = true).
    { intros l Hl. apply in_running in Hl. specialize (G l ltac:(apply in_seq; lia)).
      destruct Hl as [_ Hl]. rewrite Hl, orb_false_r in G. assumption. }
    intros a b Ha Hb. apply in_map_iff in Ha, Hb. destruct Ha as (la & <- & Ha), Hb as (lb & <- & Hb).
    apply (Ht _ (x f)); [auto|]. rewrite Hs. auto.
  - right. split; [reflexivity|]. intros H.
    apply not_true_iff_false in G. apply G. apply forallb_forall. intros l Hl. apply in_seq in Hl.
    destruct (mask l) eqn:M; [|apply orb_true_r]. rewrite orb_false_r.
    apply H; apply in_map; [apply in_running; split; [lia|assumption]|assumption].
Qed.

Lemma reduce_equal_none {A} (eqb : A -> A -> bool) W mask x : (W <= 64)%nat ->
  running W mask = [] -> reduce_equal eqb W mask x = Poison.
Proof.
  intros HW E. unfold reduce_equal. pose proof (first_running W mask HW) as F. rewrite E in F. rewrite F.
  unfold extract. replace (64 <? Z.of_nat W) with false by (symmetry; apply Z.ltb_ge; lia).
  rewrite andb_false_r. reflexivity.
Qed.

Lemma chain_equal {A} (eqb : A -> A -> bool) (v : gang A) :
  (forall a b c, eqb a b = true -> eqb b c = true -> eqb a c = true) ->
  forall n, (forall i, (i < n)%nat -> eqb (v i) (v (i + 1)%nat) = true) ->
  forall d i, (i + S d <= n)%nat -> eqb (v i) (v (i + S d)%nat) = true.
Proof.
  intros Ht n H d. induction d as [|d IH]; intros i Hi.
  - apply H. lia.
  - apply (Ht _ (v (i + S d)%nat)); [apply IH; lia|].
    replace (i + S (S d))%nat with ((i + S d) + 1)%nat by lia. apply H. lia.
Qed.

(** Neighbours pairwise equal (with at least two elements): everything equal. *)
Lemma neighbours_equal {A} (eqb : A -> A -> bool) (v : gang A) W :
  (2 <= W)%nat -> (forall a b, eqb a b = eqb b a) -> (forall a b c, eqb a b = true -> eqb b c = true -> eqb a c = true) ->
  forallb (fun i => eqb (v i) (v (i + 1)%nat)) (seq 0 (W - 1)) = true ->
  forall i j, (i < W)%nat -> (j < W)%nat -> eqb (v i) (v j) = true.
Proof.
  intros HW Hs Ht H.
  assert (N : forall i, (i < W - 1)%nat -> eqb (v i) (v (i + 1)%nat) = true).
  { intros i Hi. rewrite forallb_forall in H. apply H, in_seq. lia. }
  assert (L : forall i j, (i < j)%nat -> (j < W)%nat -> eqb (v i) (v j) = true).
  { intros i j Hij Hj. replace j with (i + S (j - i - 1))%nat by lia.
    apply (chain_equal eqb v Ht (W - 1)); [exact N|lia]. }
  intros i j Hi Hj. destruct (lt_eq_lt_dec i j) as [[K|K]|K].
  - apply L; assumption.
  - subst j. destruct (Nat.eq_dec i 0) as [->|].
    + apply (Ht _ (v 1%nat)); [|rewrite Hs]; apply L; lia.
    + apply (Ht _ (v O)); [rewrite Hs|]; apply L; lia.
  - rewrite Hs. apply L; assumption.
Qed.

Lemma reduce_equal_m4_ok {A} (eqb : A -> A -> bool) cyclic W mask x :
  (2 <= W <= 64)%nat -> (forall a b, eqb a b = eqb b a) -> (forall a b c, eqb a b = true -> eqb b c = true -> eqb a c = true) ->
  forall f rest, running W mask = f :: rest ->
  (exists v, reduce_equal_m4 eqb cyclic W mask x = Equal v /\ all_equal eqb (running_values W mask x) /\ eqb v (x f) = true) \/
  (reduce_equal_m4 eqb cyclic W mask x = NotEqual /\ ~ all_equal eqb (running_values W mask x)).
Proof.
  intros HW Hs Ht f rest E. unfold reduce_equal_m4.
  pose proof (first_running W mask ltac:(lia)) as F. rewrite E in F. rewrite F.
  assert (Hf : In f (running W mask)) by (rewrite E; left; reflexivity).
  pose proof (proj1 (in_running _ _ _) Hf) as [Hf1 Hf2].
  change (movmsk W mask =? Z.shiftr (2 ^ 64 - 1) (64 - Z.of_nat W)) with (b_all W mask).
  assert (V : exists vec, (if b_all W mask then Some x
             else match extract W x (Z.of_nat f) with
                  | None => None | Some base => Some (fun l => if mask l then x l else base) end) = Some vec
            /\ forall l, (l < W)%nat -> vec l = if mask l then x l else x f).
  { rewrite b_all_spec by lia. destruct (forallb mask (seq 0 W)) eqn:Al.
    - exists x. split; [reflexivity|]. intros l Hl. rewrite forallb_forall in Al.
      rewrite (Al l) by (apply in_seq; lia). reflexivity.
    - unfold extract. replace (0 <=? Z.of_nat f) with true by (symmetry; apply Z.leb_le; lia).
      replace (Z.of_nat f <? Z.of_nat W) with true by (symmetry; apply Z.ltb_lt; lia).
      cbn [andb]. rewrite Nat2Z.id. eexists. split; reflexivity. }
  destruct V as (vec & -> & Hv). cbv zeta.
  set (alleq := if cyclic then _ else _).
  assert (AE : alleq = true <-> all_equal eqb (running_values W mask x)).
  { assert (R : forall l, In l (running W mask) -> vec l = x l).
    { intros l Hl. apply in_running in Hl. rewrite Hv by tauto. destruct Hl as [_ ->]. reflexivity. }
    assert (Pair : (forall i j, (i < W)%nat -> (j < W)%nat -> eqb (vec i) (vec j) = true) ->
                   all_equal eqb (running_values W mask x)).
    { intros P a b Ha Hb. apply in_map_iff in Ha, Hb. destruct Ha as (la & <- & Ha), Hb as (lb & <- & Hb).
      rewrite <- (R la Ha), <- (R lb Hb). apply in_running in Ha, Hb. apply P; tauto. }
    assert (Back : all_equal eqb (running_values W mask x) ->
                   forall i j, (i < W)%nat -> (j < W)%nat -> eqb (vec i) (vec j) = true).
    { intros H i j Hi Hj. rewrite (Hv i Hi), (Hv j Hj).
      apply H; [destruct (mask i) eqn:M|destruct (mask j) eqn:M]; apply in_map; trivial;
        apply in_running; auto. }
    assert (Nb : forallb (fun i => eqb (vec i) (vec (i + 1)%nat)) (seq 0 (W - 1)) = true <->
                 all_equal eqb (running_values W mask x)).
    { split.
      - intros H. apply Pair. apply neighbours_equal; trivial; lia.
      - intros H. apply forallb_forall. intros i Hi. apply in_seq in Hi. apply Back; trivial; lia. }
    unfold alleq. destruct cyclic; [|exact Nb].
    rewrite b_all_spec by lia. split.
    - intros H. apply Nb. rewrite forallb_forall in *. intros i Hi. apply in_seq in Hi.
      specialize (H i ltac:(apply in_seq; lia)). rewrite Nat.mod_small in H by lia. assumption.
    - intros H. apply forallb_forall. intros i Hi. apply in_seq in Hi.
      apply Back; trivial; [lia|]. apply Nat.mod_upper_bound. lia. }
  destruct alleq eqn:Q.
  - left. exists (vec O). split; [reflexivity|]. assert (H : all_equal eqb (running_values W mask x)) by (apply AE; reflexivity).
    split; [assumption|]. rewrite (Hv O) by lia.
    apply H; [|apply in_map; assumption].
    destruct (mask O) eqn:M; apply in_map; trivial. apply in_running. split; [lia|assumption].
  - right. split; [reflexivity|]. intros H. apply AE in H. discriminate.
Qed.

(** ** Exclusive scans *)

Lemma insert_same {A} (v : gang A) i x : insert v i x i = x.
Proof. unfold insert. rewrite Nat.eqb_refl. reflexivity. Qed.
Lemma insert_other {A} (v : gang A) i x l : l <> i -> insert v i x l = v l.
Proof. intros H. unfold insert. rewrite (proj2 (Nat.eqb_neq _ _) H). reflexivity. Qed.

(** The loop computes s_0 = id, s_{i+1} = op val_i s_i. *)
Fixpoint scan_upto {A} (op : A -> A -> A) (id : A) (val : gang A) (i : nat) : A :=
  match i with
  | O => id
  | S i => op (val i) (scan_upto op id val i)
  end.

Lemma exclusive_scan_loop {A} (op : A -> A -> A) id (mask : gang bool) (v : gang A) : forall k,
  let res := fold_left (fun res i => insert res i (op (if mask (i - 1)%nat then v (i - 1)%nat else id) (res (i - 1)%nat)))
    (seq 1 k) (fun _ => id) in
  (forall l, (l <= k)%nat -> res l = scan_upto op id (fun i => if mask i then v i else id) l).
Proof.
  induction k as [|k IH]; cbn zeta in *; intros l Hl.
  - replace l with O by lia. reflexivity.
  - rewrite seq_S, fold_left_app. cbn [fold_left]. replace (1 + k)%nat with (S k) by lia.
    destruct (Nat.eq_dec l (S k)) as [->|].
    + rewrite insert_same. replace (S k - 1)%nat with k by lia. rewrite IH by lia. reflexivity.
    + rewrite insert_other by assumption. apply IH. lia.
Qed.

Lemma exclusive_scan_lane {A} (op : A -> A -> A) id W mask (v : gang A) l : (l < W)%nat ->
  exclusive_scan op id W mask v l = scan_upto op id (fun i => if mask i then v i else id) l.
Proof. intros Hl. unfold exclusive_scan. apply exclusive_scan_loop. lia. Qed.

(** For an associative-commutative-like operation described by an invariant. *)
Lemma scan_upto_inv {A} (op : A -> A -> A) id (mask : gang bool) (v : gang A) (P : list A -> A -> Prop) :
  P [] id ->
  (forall l acc y, P l acc -> P (l ++ [y]) (op y acc)) ->
  (forall l acc, P l acc -> P l (op id acc)) ->
  forall l, P (running_values l mask v) (scan_upto op id (fun i => if mask i then v i else id) l).
Proof.
  intros H0 H1 H2 l. induction l as [|l IH].
  - exact H0.
  - unfold running_values in *. rewrite running_succ, map_app. cbn [scan_upto].
    destruct (mask l); cbn [map]; [apply H1, IH|rewrite app_nil_r; apply H2, IH].
Qed.

Lemma scan_m4_upto_inv {A} (op : A -> A -> A) id (mask : gang bool) (v : gang A) (P : list A -> A -> Prop) :
  P [] id ->
  (forall l acc y, P l acc -> P (l ++ [y]) (op acc y)) ->
  (forall l acc, P l acc -> P l (op acc id)) ->
  forall l, P (running_values l mask v) (scan_m4_upto op id (fun i => if mask i then v i else id) l).
Proof.
  intros H0 H1 H2 l. induction l as [|l IH].
  - exact H0.
  - unfold running_values in *. rewrite running_succ, map_app. cbn [scan_m4_upto].
    destruct (mask l); cbn [map]; [apply H1, IH|rewrite app_nil_r; apply H2, IH].
Qed.

Lemma exclusive_scan_add_ok n W mask v l : 0 < n -> (l < W)%nat ->
  is_wrap_s n (total (running_values l mask v)) (exclusive_scan_add n W mask v l).
Proof.
  intros Hn Hl. apply is_wrap_s_intro; [assumption|].
  unfold exclusive_scan_add. rewrite exclusive_scan_lane by assumption.
  apply (scan_upto_inv _ 0 mask v (fun l acc => acc = wraps n (total l))).
  - symmetry. apply wraps_id; [assumption|]. unfold in_s. pose proof (pow2_pos (n - 1) ltac:(lia)). cbn. lia.
  - intros ys acc y ->. rewrite total_app. cbn [total]. rewrite Z.add_comm, wraps_add_l by assumption. f_equal; lia.
  - intros ys acc ->. cbn [Z.add]. apply wraps_id; [assumption|]. apply wraps_range; assumption.
Qed.

Lemma fold_left_snoc {A} (op : A -> A -> A) l y acc : fold_left op (l ++ [y]) acc = op (fold_left op l acc) y.
Proof. rewrite fold_left_app. reflexivity. Qed.

Lemma exclusive_scan_and_ok W mask v l : (l < W)%nat ->
  exclusive_scan_and W mask v l = fold_left Z.land (running_values l mask v) (-1).
Proof.
  intros Hl. unfold exclusive_scan_and. rewrite exclusive_scan_lane by assumption.
  apply (scan_upto_inv _ (-1) mask v (fun l acc => acc = fold_left Z.land l (-1))).
  - reflexivity.
  - intros ys acc y ->. rewrite fold_left_snoc. apply Z.land_comm.
  - intros ys acc ->. apply Z.land_m1_l.
Qed.

Lemma exclusive_scan_or_ok W mask v l : (l < W)%nat ->
  exclusive_scan_or W mask v l = fold_left Z.lor (running_values l mask v) 0.
Proof.
  intros Hl. unfold exclusive_scan_or. rewrite exclusive_scan_lane by assumption.
  apply (scan_upto_inv _ 0 mask v (fun l acc => acc = fold_left Z.lor l 0)).
  - reflexivity.
  - intros ys acc y ->. rewrite fold_left_snoc. apply Z.lor_comm.
  - intros ys acc ->. apply Z.lor_0_l.
Qed.

Lemma SFadd_comm p e a b : SFadd p e a b = SFadd p e b a.
Proof.
  destruct a as [sa|sa| |sa ma ea], b as [sb|sb| |sb mb eb]; cbn [SFadd]; try reflexivity.
  - destruct sa, sb; reflexivity.
  - destruct sa, sb; reflexivity.
  - rewrite Z.add_comm, (Z.min_comm eb ea). reflexivity.
Qed.

Lemma exclusive_scan_add_f_ok p e W mask v l : (l < W)%nat ->
  same_up_to_zero_sign (exclusive_scan_add_f p e W mask v l) (float_total p e (running_values l mask v)).
Proof.
  intros Hl. unfold exclusive_scan_add_f. rewrite exclusive_scan_lane by assumption.
  apply (scan_upto_inv _ _ mask v (fun l acc => same_up_to_zero_sign acc (float_total p e l))).
  - left; reflexivity.
  - intros ys acc y H. unfold float_total. rewrite fold_left_snoc. rewrite SFadd_comm. apply SFadd_suz, H.
  - intros ys acc H. rewrite SFadd_comm. eapply suz_trans; [apply SFadd_zero|assumption].
Qed.

(** The m4 scans. *)
Lemma scan_m4_same {A} (op : A -> A -> A) id val l : (forall a b, op a b = op b a) ->
  scan_m4_upto op id val l = scan_upto op id val l.
Proof.
  intros Hc. induction l as [|l IH]; cbn; [reflexivity|]. rewrite IH. apply Hc.
Qed.

Lemma exclusive_scan_m4_same {A} (op : A -> A -> A) id W mask (v : gang A) l :
  (forall a b, op a b = op b a) -> (l < W)%nat ->
  exclusive_scan_m4 op id W mask v l = exclusive_scan op id W mask v l.
Proof.
  intros Hc Hl. rewrite exclusive_scan_lane by assumption. apply scan_m4_same, Hc.
Qed.

(** ** Permutations *)

Lemma extract_in {A} W (v : gang A) i : 0 <= i < Z.of_nat W -> extract W v i = Some (v (Z.to_nat i)).
Proof.
  intros H. unfold extract. rewrite (proj2 (Z.leb_le _ _)), (proj2 (Z.ltb_lt _ _)) by lia. reflexivity.
Qed.
Lemma extract_out {A} W (v : gang A) i : i < 0 \/ Z.of_nat W <= i -> extract W v i = None.
Proof.
  intros H. unfold extract. destruct (Z.leb_spec 0 i), (Z.ltb_spec i (Z.of_nat W)); cbn; trivial; lia.
Qed.

Lemma land_width k i : Z.land i (Z.of_nat (2 ^ k) - 1) = i mod Z.of_nat (2 ^ k).
Proof.
  replace (Z.of_nat (2 ^ k)) with (2 ^ Z.of_nat k).
  - rewrite <- Z.land_ones by lia. f_equal. rewrite Z.ones_equiv. lia.
  - rewrite Nat2Z.inj_pow. reflexivity.
Qed.

Lemma pow2_nat_pos k : (0 < 2 ^ k)%nat.
Proof. induction k; cbn; lia. Qed.

Lemma mod_add_small a b w : 0 < w -> 0 <= b < w ->
  (a + b) mod w = if a mod w + b <? w then a mod w + b else a mod w + b - w.
Proof.
  intros Hw Hb. pose proof (Z.mod_pos_bound a w Hw) as Ha.
  pose proof (Z.div_mod a w ltac:(lia)) as E.
  destruct (Z.ltb_spec (a mod w + b) w).
  - symmetry. apply (Z.mod_unique _ _ (a / w)); lia.
  - symmetry. apply (Z.mod_unique _ _ (a / w + 1)); lia.
Qed.

Lemma rotate_mem_ok {A} k (v : gang A) i l : let W := (2 ^ k)%nat in (l < W)%nat ->
  rotate_mem W v i l = Some (v (Z.to_nat ((Z.of_nat l + i) mod Z.of_nat W))).
Proof.
  intros W Hl. unfold rotate_mem.
  replace (Z.land i (Z.of_nat W - 1)) with (i mod Z.of_nat W) by (symmetry; apply land_width).
  pose proof (pow2_nat_pos k) as Wp. fold W in Wp.
  pose proof (Z.mod_pos_bound i (Z.of_nat W) ltac:(lia)) as Hm.
  rewrite extract_in by lia. f_equal.
  rewrite (Z.add_comm (Z.of_nat l)), mod_add_small by lia.
  unfold concat. destruct (Z.ltb_spec (i mod Z.of_nat W + Z.of_nat l) (Z.of_nat W));
  match goal with |- context [Nat.ltb ?a ?b] => destruct (Nat.ltb_spec a b) end; try lia.
  - reflexivity.
  - f_equal. lia.
Qed.

Lemma wraps32_mod k x : (k <= 32)%nat -> (wraps 32 x) mod Z.of_nat (2 ^ k) = x mod Z.of_nat (2 ^ k).
Proof.
  intros Hk. rewrite Nat2Z.inj_pow. change (Z.of_nat 2) with 2.
  unfold wraps. set (w := 2 ^ Z.of_nat k).
  assert (Hw : 0 < w) by (apply Z.pow_pos_nonneg; lia).
  assert (D : 2 ^ 32 = w * 2 ^ (32 - Z.of_nat k)).
  { unfold w. rewrite <- Z.pow_add_r by lia. f_equal; lia. }
  change (32 - 1) with 31.
  pose proof (Z.div_mod (x + 2 ^ 31) (2 ^ 32) ltac:(discriminate)) as E.
  replace ((x + 2 ^ 31) mod 2 ^ 32 - 2 ^ 31) with (x + (- (2 ^ (32 - Z.of_nat k) * ((x + 2 ^ 31) / 2 ^ 32))) * w).
  - apply Z_mod_plus_full.
  - set (q := (x + 2 ^ 31) / 2 ^ 32) in *. set (r := (x + 2 ^ 31) mod 2 ^ 32) in *.
    set (h := 2 ^ (32 - Z.of_nat k)) in *. rewrite D in E. lia.
Qed.

Lemma rotate_const_ok {A} k (v : gang A) i l : (k <= 32)%nat -> let W := (2 ^ k)%nat in (l < W)%nat ->
  rotate_const W v i l = Some (v (Z.to_nat ((Z.of_nat l + i) mod Z.of_nat W))).
Proof.
  intros Hk W Hl. unfold rotate_const.
  replace (Z.land (wraps 32 (i + Z.of_nat l)) (Z.of_nat W - 1)) with ((i + Z.of_nat l) mod Z.of_nat W)
    by (symmetry; unfold W; rewrite land_width; apply wraps32_mod; assumption).
  pose proof (pow2_nat_pos k) as Wp. fold W in Wp.
  rewrite extract_in by (apply Z.mod_pos_bound; lia).
  rewrite (Z.add_comm (Z.of_nat l)). reflexivity.
Qed.

Definition rotate_row (W : nat) (r : nat) : list Z :=
  map (fun l => (Z.of_nat r + Z.of_nat l) mod Z.of_nat W) (seq 0 W).

Lemma rotate_masks_ok W : In W [4; 8; 16; 32; 64]%nat -> rotate_masks W = map (rotate_row W) (seq 0 W).
Proof.
  intros [<-|[<-|[<-|[<-|[<-|[]]]]]]; vm_compute; reflexivity.
Qed.

Lemma nth_map_seq {A} (f : nat -> A) n d l : (l < n)%nat -> nth l (map f (seq 0 n)) d = f l.
Proof.
  intros H. rewrite (nth_indep _ d (f O)) by (rewrite map_length, seq_length; assumption).
  rewrite map_nth, seq_nth by assumption. reflexivity.
Qed.

Lemma width_pow2 W : In W [4; 8; 16; 32; 64]%nat -> exists k, W = (2 ^ k)%nat /\ (2 <= k <= 6)%nat.
Proof.
  intros [<-|[<-|[<-|[<-|[<-|[]]]]]]; [exists 2%nat|exists 3%nat|exists 4%nat|exists 5%nat|exists 6%nat];
    (split; [reflexivity|lia]).
Qed.

Lemma rotate_via_shuffle_ok {A} W (v : gang A) i l : In W [4; 8; 16; 32; 64]%nat -> (l < W)%nat ->
  rotate_via_shuffle W v i l = Some (v (Z.to_nat ((Z.of_nat l + i) mod Z.of_nat W))).
Proof.
  intros HW Hl. unfold rotate_via_shuffle, shuffle. rewrite (rotate_masks_ok W HW).
  destruct (width_pow2 W HW) as (k & -> & Hk). rewrite land_width.
  pose proof (pow2_nat_pos k) as Wp.
  pose proof (Z.mod_pos_bound i (Z.of_nat (2 ^ k)) ltac:(lia)) as Hm.
  rewrite nth_map_seq by lia. unfold rotate_row. rewrite nth_map_seq by assumption.
  rewrite Z2Nat.id by lia. rewrite Zplus_mod_idemp_l.
  rewrite extract_in by (apply Z.mod_pos_bound; lia). rewrite (Z.add_comm i). reflexivity.
Qed.

Lemma shift_mem_ok {A} (zero : A) W (v : gang A) i l : (W <= 64)%nat -> (l < W)%nat ->
  - Z.of_nat W <= i <= Z.of_nat W ->
  shift_mem zero W v i l =
    Some (if (0 <=? Z.of_nat l + i) && (Z.of_nat l + i <? Z.of_nat W) then v (Z.to_nat (Z.of_nat l + i)) else zero).
Proof.
  intros HW Hl Hi. unfold shift_mem.
  rewrite (wraps_id 32) by (unfold in_s; change (2 ^ (32 - 1)) with 2147483648; lia).
  rewrite extract_in by lia. f_equal.
  destruct (Z.leb_spec 0 (Z.of_nat l + i)), (Z.ltb_spec (Z.of_nat l + i) (Z.of_nat W)); cbn [andb];
  repeat match goal with |- context [Nat.ltb ?a ?b] => destruct (Nat.ltb_spec a b) end; try lia; trivial.
  f_equal. lia.
Qed.

Lemma shift_mem_oob {A} (zero : A) W (v : gang A) i : (0 < W <= 64)%nat -> in_s 32 i ->
  i < - Z.of_nat W \/ Z.of_nat W < i ->
  exists l, (l < W)%nat /\ shift_mem zero W v i l = None.
Proof.
  intros HW Hr Hi. unfold in_s in Hr. change (2 ^ (32 - 1)) with 2147483648 in Hr.
  unfold shift_mem.
  destruct (Z.lt_ge_cases (i + Z.of_nat W) 2147483648) as [L|L].
  - rewrite (wraps_id 32) by (unfold in_s; change (2 ^ (32 - 1)) with 2147483648; lia).
    destruct Hi as [Hi|Hi].
    + exists O. split; [lia|]. apply extract_out. lia.
    + exists (W - 1)%nat. split; [lia|]. apply extract_out. lia.
  - exists O. split; [lia|]. apply extract_out. left.
    assert (wraps 32 (i + Z.of_nat W) = i + Z.of_nat W - 2 ^ 32).
    { unfold wraps. change (2 ^ (32 - 1)) with 2147483648. change (2 ^ 32) with 4294967296.
      rewrite <- (Z_mod_plus_full _ (-1)). rewrite Z.mod_small; lia. }
    rewrite H. change (2 ^ 32) with 4294967296. lia.
Qed.

Lemma shift_via_shuffle_ok {A} (zero : A) W (v : gang A) i l : (W <= 64)%nat -> (l < W)%nat -> in_s 32 i ->
  shift_via_shuffle zero W v i l =
    Some (if (0 <=? Z.of_nat l + i) && (Z.of_nat l + i <? Z.of_nat W) then v (Z.to_nat (Z.of_nat l + i)) else zero).
Proof.
  intros HW Hl Hr. unfold in_s in Hr. change (2 ^ (32 - 1)) with 2147483648 in Hr.
  unfold shift_via_shuffle, shuffle.
  destruct (Z.lt_ge_cases (Z.of_nat l + i) 2147483648) as [L|L].
  - rewrite (wraps_id 32) by (unfold in_s; change (2 ^ (32 - 1)) with 2147483648; lia).
    destruct ((0 <=? Z.of_nat l + i) && (Z.of_nat l + i <? Z.of_nat W)) eqn:E; [|reflexivity].
    apply andb_true_iff in E. destruct E as [E1 E2]. apply Z.leb_le in E1. apply Z.ltb_lt in E2.
    apply extract_in. lia.
  - assert (E : wraps 32 (Z.of_nat l + i) = Z.of_nat l + i - 2 ^ 32).
    { unfold wraps. change (2 ^ (32 - 1)) with 2147483648. change (2 ^ 32) with 4294967296.
      rewrite <- (Z_mod_plus_full _ (-1)). rewrite Z.mod_small; lia. }
    rewrite E. change (2 ^ 32) with 4294967296.
    destruct (Z.leb_spec 0 (Z.of_nat l + i - 4294967296)); [lia|]. cbn [andb].
    destruct (Z.ltb_spec (Z.of_nat l + i) (Z.of_nat W)); [lia|]. rewrite andb_false_r. reflexivity.
Qed.

(** ** Packed stores and loads *)

Definition cs_step (mask : gang bool) (v : gang Z) (p : Z) (st : memory * Z) (i : nat) : memory * Z :=
  let '(m, k) := st in if mask i then (mset m (p + k) (v i), k + 1) else (m, k).

Lemma mset_same m a x : mset m a x a = x.
Proof. unfold mset. rewrite Z.eqb_refl. reflexivity. Qed.
Lemma mset_other m a x b : b <> a -> mset m a x b = m b.
Proof. intros H. unfold mset. rewrite (proj2 (Z.eqb_neq _ _) H). reflexivity. Qed.

Lemma cs_fold mask v p : forall W m,
  let st := fold_left (cs_step mask v p) (seq 0 W) (m, 0) in
  snd st = Z.of_nat (length (running W mask)) /\
  holds_at (fst st) p (running_values W mask v) /\
  unchanged_outside m (fst st) p (Z.of_nat (length (running W mask))).
Proof.
  induction W as [|W IH]; intros m; cbn zeta.
  - cbn. repeat split; try (intros k Hk; cbn in Hk; lia). 
  - destruct (IH m) as (A & B & C). cbn zeta in *.
    rewrite seq_S, fold_left_app. cbn [fold_left plus].
    destruct (fold_left (cs_step mask v p) (seq 0 W) (m, 0)) as [m1 k1] eqn:E. cbn [fst snd] in *. cbn [cs_step].
    unfold running_values. rewrite running_succ. destruct (mask W); cbn [fst snd].
    + rewrite map_app, app_length. cbn [length map]. split; [lia|]. split.
      * intros j Hj. rewrite app_length, map_length in Hj. cbn in Hj.
        destruct (Nat.eq_dec j (length (running W mask))) as [->|N].
        -- rewrite <- A, mset_same. rewrite app_nth2; rewrite map_length; [|lia].
           rewrite Nat.sub_diag. reflexivity.
        -- rewrite mset_other by lia. rewrite app_nth1 by (rewrite map_length; lia).
           apply B. unfold running_values. rewrite map_length. lia.
      * intros a Ha. rewrite mset_other by lia. apply C. lia.
    + rewrite app_nil_r. auto.
Qed.

Lemma packed_store_ok W mask v p m : (W <= 64)%nat ->
  let '(m', n) := packed_store_active W mask v p m in
  n = Z.of_nat (length (running W mask)) /\
  holds_at m' p (running_values W mask v) /\ unchanged_outside m m' p n.
Proof.
  intros HW. unfold packed_store_active. rewrite ctpop_movmsk by assumption.
  destruct (cs_fold mask v p W m) as (A & B & C).
  split; [reflexivity|]. split; [exact B|exact C].
Qed.

Definition el_step (mask : gang bool) (p : Z) (m : memory) (st : gang Z * Z) (i : nat) : gang Z * Z :=
  let '(r, k) := st in if mask i then (insert r i (m (p + k)), k + 1) else (r, k).

(** Position of lane l among the running ones. *)
Definition rank (mask : nat -> bool) (l : nat) : nat := length (filter mask (seq 0 l)).

Lemma el_fold mask p m old : forall W,
  let st := fold_left (el_step mask p m) (seq 0 W) (old, 0) in
  snd st = Z.of_nat (length (running W mask)) /\
  forall l, fst st l = if (Nat.ltb l W) && mask l then m (p + Z.of_nat (rank mask l)) else old l.
Proof.
  induction W as [|W (A & B)]; cbn zeta in *.
  - split; reflexivity.
  - rewrite seq_S, fold_left_app. cbn [fold_left plus].
    destruct (fold_left (el_step mask p m) (seq 0 W) (old, 0)) as [r k] eqn:E. cbn [fst snd] in *. cbn [el_step].
    rewrite running_succ. destruct (mask W) eqn:M; cbn [fst snd].
    + rewrite app_length. cbn [length]. split; [lia|]. intros l.
      destruct (Nat.eq_dec l W) as [->|N].
      * rewrite insert_same, M. replace (Nat.ltb W (S W)) with true by (symmetry; apply Nat.ltb_lt; lia).
        cbn [andb]. rewrite A. reflexivity.
      * rewrite insert_other, B by assumption.
        destruct (Nat.ltb_spec l W), (Nat.ltb_spec l (S W)); trivial; lia.
    + rewrite app_nil_r. split; [assumption|]. intros l. rewrite B.
      destruct (Nat.eq_dec l W) as [->|N].
      * rewrite M, !andb_false_r. reflexivity.
      * destruct (Nat.ltb_spec l W), (Nat.ltb_spec l (S W)); trivial; lia.
Qed.

Lemma packed_load_ok W mask p m old : (W <= 64)%nat ->
  let '(r, n) := packed_load_active W mask p m old in
  n = Z.of_nat (length (running W mask)) /\
  (forall l, (l < W)%nat -> mask l = true -> r l = m (p + Z.of_nat (rank mask l))) /\
  (forall l, mask l = false -> r l = old l).
Proof.
  intros HW. unfold packed_load_active. rewrite ctpop_movmsk by assumption.
  destruct (el_fold mask p m old W) as (A & B).
  split; [reflexivity|]. split.
  - intros l Hl M. unfold expandload. change (fun st i => let '(r, k) := st in if mask i then (insert r i (m (p + k)), k + 1) else (r, k)) with (el_step mask p m).
    unfold lanes. rewrite B, M. rewrite (proj2 (Nat.ltb_lt _ _) Hl). reflexivity.
  - intros l M. unfold expandload. change (fun st i => let '(r, k) := st in if mask i then (insert r i (m (p + k)), k + 1) else (r, k)) with (el_step mask p m).
    unfold lanes. rewrite B, M, andb_false_r. reflexivity.
Qed.

Lemma rank_nth mask W l : (l < W)%nat -> mask l = true ->
  (rank mask l < length (running W mask))%nat /\ nth (rank mask l) (running W mask) O = l.
Proof.
  intros Hl M. unfold running, rank.
  replace W with (l + S (W - l - 1))%nat by lia.
  rewrite seq_app, filter_app. cbn [seq filter plus]. rewrite M. split.
  - rewrite app_length. cbn. lia.
  - rewrite app_nth2 by lia. rewrite Nat.sub_diag. reflexivity.
Qed.

Lemma packed_roundtrip W mask v p m old : (W <= 64)%nat ->
  forall l, (l < W)%nat ->
  fst (packed_load_active W mask p (fst (packed_store_active W mask v p m)) old) l = if mask l then v l else old l.
Proof.
  intros HW l Hl. pose proof (packed_store_ok W mask v p m HW) as S.
  destruct (packed_store_active W mask v p m) as [m' n]. destruct S as (E & H & _). cbn [fst].
  pose proof (packed_load_ok W mask p m' old HW) as L.
  destruct (packed_load_active W mask p m' old) as [r n']. destruct L as (E' & R & Off). cbn [fst].
  destruct (mask l) eqn:M; [|apply Off, M].
  rewrite R by assumption. destruct (rank_nth mask W l Hl M) as [K1 K2].
  rewrite H by (unfold running_values; rewrite map_length; assumption).
  unfold running_values. rewrite (nth_indep _ 0 (v O)) by (rewrite map_length; assumption).
  rewrite map_nth, K2. reflexivity.
Qed.

(** packed_store_active2: unconditional stores at the running offset. *)
Definition cs2_step (mb : Z) (mask : gang bool) (v : gang Z) (p : Z) (st : memory * Z) (i : nat) : memory * Z :=
  let '(m, off) := st in (mset m (p + off) (v i), wrapu mb (off - (if mask i then 2 ^ mb - 1 else 0))).

Lemma cs2_fold mb mask v p : 0 <= mb -> forall W m, Z.of_nat W < 2 ^ mb ->
  let st := fold_left (cs2_step mb mask v p) (seq 0 W) (m, 0) in
  snd st = Z.of_nat (length (running W mask)) /\
  holds_at (fst st) p (running_values W mask v) /\
  unchanged_outside m (fst st) p (Z.of_nat (length (running W mask)) + 1).
Proof.
  intros Hmb. induction W as [|W IH]; intros m HW; cbn zeta.
  - cbn. repeat split; try (intros k Hk; cbn in Hk; lia).
  - destruct (IH m ltac:(lia)) as (A & B & C). cbn zeta in *.
    rewrite seq_S, fold_left_app. cbn [fold_left plus].
    destruct (fold_left (cs2_step mb mask v p) (seq 0 W) (m, 0)) as [m1 k1] eqn:E. cbn [fst snd] in *. cbn [cs2_step].
    assert (Hlen : (length (running W mask) <= W)%nat).
    { unfold running. clear. generalize 0%nat. induction W as [|W IH]; intros s; cbn [seq filter length]; [lia|].
      specialize (IH (S s)). destruct (mask s); cbn [length]; lia. }
    unfold running_values. rewrite running_succ. destruct (mask W); cbn [fst snd].
    + rewrite map_app, app_length. cbn [length map]. split; [|split].
      * subst k1. replace (Z.of_nat (length (running W mask)) - (2 ^ mb - 1))
          with (Z.of_nat (length (running W mask)) + 1 + (-1) * 2 ^ mb) by lia.
        unfold wrapu. rewrite Z_mod_plus_full. rewrite Z.mod_small; lia.
      * intros j Hj. rewrite app_length, map_length in Hj. cbn in Hj.
        destruct (Nat.eq_dec j (length (running W mask))) as [->|N].
        -- rewrite <- A, mset_same. rewrite app_nth2; rewrite map_length; [|lia].
           rewrite Nat.sub_diag. reflexivity.
        -- rewrite mset_other by lia. rewrite app_nth1 by (rewrite map_length; lia).
           apply B. unfold running_values. rewrite map_length. lia.
      * intros a Ha. rewrite mset_other by lia. apply C. lia.
    + rewrite app_nil_r. split; [|split].
      * subst k1. rewrite Z.sub_0_r. unfold wrapu. rewrite Z.mod_small; lia.
      * intros j Hj. rewrite map_length in Hj. rewrite mset_other by lia. apply B.
        unfold running_values. rewrite map_length. assumption.
      * intros a Ha. rewrite mset_other by lia. apply C. assumption.
Qed.

Lemma running_all W mask : forallb mask (seq 0 W) = true -> running W mask = seq 0 W.
Proof.
  intros H. unfold running. rewrite forallb_forall in H.
  assert (G : forall l, (forall x, In x l -> mask x = true) -> filter mask l = l).
  { induction l as [|x l IH]; intros K; cbn; [reflexivity|]. rewrite K by (left; reflexivity).
    f_equal. apply IH. intros y Hy. apply K. right; assumption. }
  apply G, H.
Qed.

Lemma vstore_fold v p : forall W m,
  let m' := fold_left (fun m i => mset m (p + Z.of_nat i) (v i)) (seq 0 W) m in
  holds_at m' p (map v (seq 0 W)) /\ unchanged_outside m m' p (Z.of_nat W).
Proof.
  induction W as [|W IH]; intros m; cbn zeta.
  - split; intros k Hk; cbn in Hk; trivial; lia.
  - destruct (IH m) as (B & C). cbn zeta in *. rewrite seq_S, fold_left_app, map_app. cbn [fold_left plus map]. split.
    + intros j Hj. rewrite app_length, map_length, seq_length in Hj. cbn in Hj.
      destruct (Nat.eq_dec j W) as [->|N].
      * rewrite mset_same, app_nth2; rewrite map_length, seq_length; [|lia]. rewrite Nat.sub_diag. reflexivity.
      * rewrite mset_other by lia. rewrite app_nth1 by (rewrite map_length, seq_length; lia).
        apply B. rewrite map_length, seq_length. lia.
    + intros a Ha. rewrite mset_other by lia. apply C. lia.
Qed.

Lemma packed_store2_ok mb known W mask v p m : (W <= 64)%nat -> 0 <= mb -> Z.of_nat W < 2 ^ mb ->
  let '(m', n) := packed_store_active2 mb known W mask v p m in
  n = Z.of_nat (length (running W mask)) /\
  holds_at m' p (running_values W mask v) /\ unchanged_outside m m' p (n + 1).
Proof.
  intros HW Hmb Hb. unfold packed_store_active2.
  change (movmsk W mask =? Z.shiftr (2 ^ 64 - 1) (64 - Z.of_nat W)) with (b_all W mask).
  destruct (known && b_all W mask) eqn:K.
  - apply andb_true_iff in K. destruct K as [_ K]. rewrite b_all_spec in K by assumption.
    unfold running_values. rewrite (running_all W mask K), seq_length.
    destruct (vstore_fold v p W m) as (B & C). split; [reflexivity|]. split; [exact B|].
    intros a Ha. apply C. lia.
  - pose proof (cs2_fold mb mask v p Hmb W m Hb) as (A & B & C). cbn zeta in *.
    unfold lanes. change (fun st i => let '(m0, off) := st in
       (mset m0 (p + off) (v i), wrapu mb (off - (if mask i then 2 ^ mb - 1 else 0)))) with (cs2_step mb mask v p).
    destruct (fold_left (cs2_step mb mask v p) (seq 0 W) (m, 0)) as [m' n]. cbn [fst snd] in *.
    subst n. auto.
Qed.

(** ** AoS / SoA *)

Lemma insert_fold {A} (f : nat -> A) : forall W (x0 : gang A),
  let r := fold_left (fun x i => insert x i (f i)) (seq 0 W) x0 in
  forall l, r l = if Nat.ltb l W then f l else x0 l.
Proof.
  induction W as [|W IH]; intros x0 r l; unfold r; clear r.
  - reflexivity.
  - rewrite seq_S, fold_left_app. cbn [fold_left plus].
    destruct (Nat.eq_dec l W) as [->|N].
    + rewrite insert_same. replace (Nat.ltb W (S W)) with true by (symmetry; apply Nat.ltb_lt; lia). reflexivity.
    + rewrite insert_other by assumption. rewrite IH.
      destruct (Nat.ltb_spec l W), (Nat.ltb_spec l (S W)); trivial; lia.
Qed.

Lemma aos_to_soa_ok n W p m k l : (l < W)%nat ->
  aos_to_soa n W p m k l = m (p + Z.of_nat (n * l + k)).
Proof.
  intros Hl. unfold aos_to_soa, lanes. rewrite insert_fold.
  rewrite (proj2 (Nat.ltb_lt _ _) Hl). f_equal. f_equal. f_equal. lia.
Qed.

(** Storing one structure: fields 0 .. c-1 at q. *)
Lemma fields_fold (g : nat -> Z) q : forall c m a,
  fold_left (fun m k => mset m (q + Z.of_nat k) (g k)) (seq 0 c) m a =
  if (q <=? a) && (a <? q + Z.of_nat c) then g (Z.to_nat (a - q)) else m a.
Proof.
  induction c as [|c IH]; intros m a.
  - cbn. destruct (Z.leb_spec q a), (Z.ltb_spec a (q + 0)); cbn; trivial; lia.
  - rewrite seq_S, fold_left_app. cbn [fold_left plus].
    destruct (Z.eq_dec a (q + Z.of_nat c)) as [->|N].
    + rewrite mset_same. destruct (Z.leb_spec q (q + Z.of_nat c)); [|lia].
      destruct (Z.ltb_spec (q + Z.of_nat c) (q + Z.of_nat (S c))); [|lia]. cbn [andb].
      f_equal. lia.
    + rewrite mset_other, IH by assumption.
      destruct (Z.leb_spec q a), (Z.ltb_spec a (q + Z.of_nat c)), (Z.ltb_spec a (q + Z.of_nat (S c)));
        cbn [andb]; trivial; lia.
Qed.

Lemma fold_repeat (f : memory -> memory) (P : memory -> memory -> Prop) :
  (forall m, P m (f m)) -> (forall a b, P a b -> P a (f b)) ->
  forall (l : list nat) m, l <> [] -> P m (fold_left (fun m _ => f m) l m).
Proof.
  intros H1 H2 l m N. destruct l as [|x l]; [congruence|]. cbn [fold_left].
  assert (G : forall l b, P m b -> P m (fold_left (fun m (_ : nat) => f m) l b)).
  { induction l0 as [|y l0 IH]; intros b Hb; cbn [fold_left]; [assumption|]. apply IH, H2, Hb. }
  apply G, H1.
Qed.

Lemma soa_to_aos_struct n (v : nat -> gang Z) p j m a : (0 < n)%nat ->
  fold_left (fun m (_ : nat) =>
      fold_left (fun m k => mset m (p + Z.of_nat (n * j + k)) (v k j)) (seq 0 n) m) (seq 0 n) m a =
  if (p + Z.of_nat (n * j) <=? a) && (a <? p + Z.of_nat (n * j + n)) then v (Z.to_nat (a - (p + Z.of_nat (n * j)))) j else m a.
Proof.
  intros Hn.
  pose (q := p + Z.of_nat (n * j)).
  assert (F : forall m a, fold_left (fun m k => mset m (p + Z.of_nat (n * j + k)) (v k j)) (seq 0 n) m a =
    if (q <=? a) && (a <? q + Z.of_nat n) then v (Z.to_nat (a - q)) j else m a).
  { intros m0 a0. rewrite <- (fields_fold (fun k => v k j) q n m0 a0).
    assert (X : forall l m0, fold_left (fun m k => mset m (p + Z.of_nat (n * j + k)) (v k j)) l m0 =
                          fold_left (fun m k => mset m (q + Z.of_nat k) (v k j)) l m0).
    { induction l as [|k l IH]; intros m1; cbn [fold_left]; [reflexivity|].
      replace (p + Z.of_nat (n * j + k)) with (q + Z.of_nat k) by (unfold q; lia). apply IH. }
    rewrite X. reflexivity. }
  fold q. replace (p + Z.of_nat (n * j + n)) with (q + Z.of_nat n) by (unfold q; lia).
  pose (P := fun m m' : memory => forall a, m' a = if (q <=? a) && (a <? q + Z.of_nat n) then v (Z.to_nat (a - q)) j else m a).
  apply (fold_repeat _ P).
  - intros m0 a0. apply F.
  - intros m0 m1 H a0. rewrite F, H. destruct ((q <=? a0) && (a0 <? q + Z.of_nat n)); reflexivity.
  - destruct n; [lia|discriminate].
Qed.

Lemma soa_to_aos_ok n W v p m : (0 < n)%nat ->
  (forall k l, (k < n)%nat -> (l < W)%nat -> soa_to_aos n W v p m (p + Z.of_nat (n * l + k)) = v k l) /\
  unchanged_outside m (soa_to_aos n W v p m) p (Z.of_nat (n * W)).
Proof.
  intros Hn. unfold soa_to_aos, lanes. induction W as [|W (A & B)].
  - split; [intros; lia|]. intros a Ha. reflexivity.
  - rewrite seq_S, fold_left_app. cbn [fold_left plus].
    set (m1 := fold_left _ (seq 0 W) m) in *. split.
    + intros k l Hk Hl. rewrite soa_to_aos_struct by assumption.
      destruct (Nat.eq_dec l W) as [->|N].
      * replace (p + Z.of_nat (n * W) <=? p + Z.of_nat (n * W + k)) with true by (symmetry; apply Z.leb_le; lia).
        replace (p + Z.of_nat (n * W + k) <? p + Z.of_nat (n * W + n)) with true by (symmetry; apply Z.ltb_lt; lia).
        cbn [andb]. f_equal. lia.
      * replace (p + Z.of_nat (n * W) <=? p + Z.of_nat (n * l + k)) with false
          by (symmetry; apply Z.leb_gt; nia).
        cbn [andb]. apply A; lia.
    + intros a Ha. rewrite soa_to_aos_struct by assumption.
      destruct (Z.leb_spec (p + Z.of_nat (n * W)) a), (Z.ltb_spec a (p + Z.of_nat (n * W + n)));
        cbn [andb]; try (apply B; lia). nia.
Qed.
