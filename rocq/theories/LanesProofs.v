(** Proofs about the cross-lane operations. *)
From Coq Require Import ZArith Lia List Bool SpecFloat.
From Verif Require Import Bits LanesTables LanesModel LanesSpec.
Import ListNotations.
Local Open Scope Z_scope.

(** ** Masks as integers *)

Lemma movmsk_testbit_gen m l : forall acc j, 0 <= j -> 
  Z.testbit (fold_left (fun acc i => Z.lor acc (Z.shiftl (b2z (m i)) (Z.of_nat i))) l acc) j
  = Z.testbit acc j || existsb (fun i => (Z.of_nat i =? j) && m i) l.
Proof.
  induction l as [|i l IH]; intros acc j Hj; cbn [fold_left existsb].
  - rewrite orb_false_r; reflexivity.
  - rewrite IH by assumption. rewrite Z.lor_spec, <- orb_assoc. f_equal. f_equal.
    rewrite Z.shiftl_spec by assumption.
    destruct (m i); cbn [b2z].
    + rewrite andb_true_r. destruct (Z.eqb_spec (Z.of_nat i) j) as [<-|N].
      * rewrite Z.sub_diag. reflexivity.
      * destruct (Z.lt_ge_cases (j - Z.of_nat i) 0).
        -- apply Z.testbit_neg_r; lia.
        -- change 1 with (2 ^ 0). apply Z.pow2_bits_false. lia.
    + rewrite andb_false_r. apply Z.testbit_0_l.
Qed.

Lemma movmsk_testbit W m j : 0 <= j ->
  Z.testbit (movmsk W m) j = (j <? Z.of_nat W) && m (Z.to_nat j).
Proof.
  intros Hj. unfold movmsk, lanes. rewrite movmsk_testbit_gen, Z.testbit_0_l, orb_false_l by assumption.
  apply eq_true_iff_eq. rewrite existsb_exists, !andb_true_iff, Z.ltb_lt. split.
  - intros (i & Hi & Hm). apply in_seq in Hi. apply andb_true_iff in Hm. destruct Hm as [E Hm].
    apply Z.eqb_eq in E. subst j. rewrite Nat2Z.id. split; [lia|assumption].
  - intros [Hlt Hm]. exists (Z.to_nat j). split; [apply in_seq; lia|].
    rewrite Hm, andb_true_r. apply Z.eqb_eq. lia.
Qed.

Lemma movmsk_nonneg W m : 0 <= movmsk W m.
Proof.
  unfold movmsk. generalize (lanes W). intros l.
  assert (H : forall acc, 0 <= acc ->
    0 <= fold_left (fun acc i => Z.lor acc (Z.shiftl (b2z (m i)) (Z.of_nat i))) l acc).
  { induction l as [|i l IH]; intros acc Ha; cbn [fold_left]; [assumption|].
    apply IH. apply Z.lor_nonneg. split; [assumption|].
    apply Z.shiftl_nonneg. destruct (m i); cbn; lia. }
  apply H. lia.
Qed.

Lemma movmsk_zero W m : (movmsk W m =? 0) = negb (existsb m (seq 0 W)).
Proof.
  apply eq_true_iff_eq. rewrite Z.eqb_eq, negb_true_iff. split.
  - intros E. apply not_true_iff_false. intros H. apply existsb_exists in H.
    destruct H as (i & Hi & Hm). apply in_seq in Hi.
    assert (T : Z.testbit (movmsk W m) (Z.of_nat i) = true).
    { rewrite movmsk_testbit by lia. rewrite Nat2Z.id, Hm, andb_true_r. apply Z.ltb_lt. lia. }
    rewrite E, Z.testbit_0_l in T. discriminate.
  - intros H. apply Z.bits_inj'. intros j Hj. rewrite movmsk_testbit, Z.testbit_0_l by assumption.
    destruct (Z.ltb_spec j (Z.of_nat W)); [cbn [andb]|reflexivity].
    destruct (m (Z.to_nat j)) eqn:E; [|reflexivity].
    rewrite <- H. apply eq_sym, existsb_exists. exists (Z.to_nat j). split; [apply in_seq; lia|assumption].
Qed.

Lemma all_ones_value W : (W <= 64)%nat -> Z.shiftr (2 ^ 64 - 1) (64 - Z.of_nat W) = Z.ones (Z.of_nat W).
Proof.
  intros HW. change (2 ^ 64 - 1) with (Z.ones 64). rewrite Z.shiftr_div_pow2 by lia.
  rewrite Z.ones_div_pow2 by lia. f_equal. lia.
Qed.

Lemma b_all_spec W m : (W <= 64)%nat -> b_all W m = forallb m (seq 0 W).
Proof.
  intros HW. unfold b_all. rewrite all_ones_value by assumption.
  apply eq_true_iff_eq. rewrite Z.eqb_eq, forallb_forall. split.
  - intros E i Hi. apply in_seq in Hi.
    assert (T : Z.testbit (movmsk W m) (Z.of_nat i) = true).
    { rewrite E. apply Z.ones_spec_low. lia. }
    rewrite movmsk_testbit, Nat2Z.id in T by lia. apply andb_true_iff in T. apply T.
  - intros H. apply Z.bits_inj'. intros j Hj. rewrite movmsk_testbit by assumption.
    destruct (Z.ltb_spec j (Z.of_nat W)).
    + rewrite Z.ones_spec_low by lia. cbn [andb]. apply H, in_seq. lia.
    + rewrite Z.ones_spec_high by lia. reflexivity.
Qed.

Lemma b_any_spec W m : b_any W m = existsb m (seq 0 W).
Proof. unfold b_any. rewrite movmsk_zero, negb_involutive. reflexivity. Qed.

Lemma b_none_spec W m : b_none W m = negb (existsb m (seq 0 W)).
Proof. unfold b_none. apply movmsk_zero. Qed.

Lemma in_running W mask l : In l (running W mask) <-> (l < W)%nat /\ mask l = true.
Proof. unfold running. rewrite filter_In, in_seq. intuition lia. Qed.

Lemma any_ok W mask v : any W mask v = true <-> exists l, In l (running W mask) /\ v l = true.
Proof.
  unfold any. rewrite b_any_spec, existsb_exists. split.
  - intros (l & Hl & H). apply andb_true_iff in H. exists l. rewrite in_running. apply in_seq in Hl.
    intuition lia.
  - intros (l & Hl & H). apply in_running in Hl. exists l. rewrite in_seq, andb_true_iff. intuition lia.
Qed.

Lemma none_ok W mask v : none W mask v = true <-> forall l, In l (running W mask) -> v l = false.
Proof.
  unfold none. rewrite b_none_spec. change (existsb _ _) with (existsb (fun l => v l && mask l) (seq 0 W)).
  rewrite <- b_any_spec. change (b_any W _) with (any W mask v). rewrite negb_true_iff. split.
  - intros E l Hl. destruct (v l) eqn:V; [|reflexivity].
    rewrite <- E. symmetry. apply any_ok. exists l; auto.
  - intros H. destruct (any W mask v) eqn:E; [|reflexivity]. apply any_ok in E.
    destruct E as (l & Hl & V). rewrite H in V by assumption. discriminate.
Qed.

Lemma all_ok W mask v : (W <= 64)%nat ->
  all W mask v = true <-> forall l, In l (running W mask) -> v l = true.
Proof.
  intros HW. unfold all. rewrite b_all_spec, forallb_forall by assumption. split.
  - intros H l Hl. apply in_running in Hl. destruct Hl as [Hl Hm].
    specialize (H l). rewrite Hm, orb_false_r in H. apply H, in_seq. lia.
  - intros H l Hl. apply in_seq in Hl. destruct (mask l) eqn:Hm.
    + rewrite orb_false_r. apply H, in_running. split; [lia|assumption].
    + apply orb_true_r.
Qed.

(** Population count. *)
Lemma fold_count f l : forall acc,
  fold_left (fun acc (i : nat) => acc + b2z (f i)) l acc = acc + Z.of_nat (length (filter f l)).
Proof.
  induction l as [|i l IH]; intros acc; cbn [fold_left filter].
  - cbn. lia.
  - rewrite IH. destruct (f i); cbn [b2z length]; lia.
Qed.

Lemma filter_seq_false (f : nat -> bool) s n : (forall i, (s <= i)%nat -> f i = false) -> filter f (seq s n) = [].
Proof.
  revert s; induction n as [|n IH]; intros s H; cbn [seq filter]; [reflexivity|].
  rewrite (H s) by lia. apply IH. intros i Hi. apply H. lia.
Qed.

Lemma ctpop_movmsk W m : (W <= 64)%nat ->
  ctpop64 (movmsk W m) = Z.of_nat (length (filter m (seq 0 W))).
Proof.
  intros HW. unfold ctpop64. rewrite fold_count. cbn [Z.add].
  f_equal. f_equal. replace 64%nat with (W + (64 - W))%nat by lia.
  rewrite seq_app, filter_app, (filter_seq_false _ (0 + W)).
  - rewrite app_nil_r. apply filter_ext_in. intros i Hi. apply in_seq in Hi.
    rewrite movmsk_testbit, Nat2Z.id by lia.
    destruct (Z.ltb_spec (Z.of_nat i) (Z.of_nat W)); [reflexivity|lia].
  - intros i Hi. rewrite movmsk_testbit by lia.
    destruct (Z.ltb_spec (Z.of_nat i) (Z.of_nat W)); [lia|reflexivity].
Qed.

(** Lowest set bit. *)
Lemma cttz_from_spec x : forall n i, 0 <= i ->
  let r := cttz_from n x i in
  i <= r <= i + Z.of_nat n /\ (forall j, i <= j < r -> Z.testbit x j = false) /\
  (r < i + Z.of_nat n -> Z.testbit x r = true).
Proof.
  induction n as [|n IH]; intros i Hi; cbn [cttz_from].
  - repeat split; try lia; intros; lia.
  - destruct (Z.testbit x i) eqn:E.
    + repeat split; try lia. intros; assumption.
    + destruct (IH (i + 1) ltac:(lia)) as (A & B & C). cbn zeta in *. repeat split; try lia.
      * intros j Hj. destruct (Z.eq_dec j i) as [->|]; [assumption|]. apply B. lia.
      * intros Hr. apply C. lia.
Qed.

Lemma first_running W m : (W <= 64)%nat ->
  match running W m with
  | [] => cttz64 (movmsk W m) = 64
  | f :: _ => cttz64 (movmsk W m) = Z.of_nat f
  end.
Proof.
  intros HW. unfold cttz64.
  destruct (cttz_from_spec (movmsk W m) 64 0 ltac:(lia)) as (A & B & C).
  set (r := cttz_from 64 (movmsk W m) 0) in *.
  destruct (running W m) as [|f rest] eqn:E.
  - destruct (Z.lt_ge_cases r 64) as [L|]; [|lia].
    specialize (C ltac:(lia)). rewrite movmsk_testbit in C by lia.
    apply andb_true_iff in C. destruct C as [C1 C2]. apply Z.ltb_lt in C1.
    assert (In (Z.to_nat r) (running W m)) by (apply in_running; split; [lia|assumption]).
    rewrite E in H. destruct H.
  - assert (Hf : In f (running W m)) by (rewrite E; left; reflexivity).
    apply in_running in Hf. destruct Hf as [Hf Hm].
    assert (T : Z.testbit (movmsk W m) (Z.of_nat f) = true).
    { rewrite movmsk_testbit, Nat2Z.id, Hm, andb_true_r by lia. apply Z.ltb_lt. lia. }
    destruct (Z.lt_trichotomy r (Z.of_nat f)) as [L|[L|L]].
    + (* a smaller active lane contradicts that f is first *)
      specialize (C ltac:(lia)). rewrite movmsk_testbit in C by lia.
      apply andb_true_iff in C. destruct C as [C1 C2].
      assert (Hin : In (Z.to_nat r) (running W m)) by (apply in_running; split; [lia|assumption]).
      assert (S : forall a n, let l := filter m (seq a n) in
        match l with [] => True | h :: _ => forall y, In y l -> (h <= y)%nat end).
      { clear. intros a n; revert a; induction n as [|n IH]; intros a; cbn [seq filter]; [exact I|].
        destruct (m a); [|apply IH].
        intros y [<-|Hy]; [lia|]. apply filter_In in Hy. destruct Hy as [Hy _]. apply in_seq in Hy. lia. }
      specialize (S 0%nat W). cbn zeta in S. unfold running in E. rewrite E in S.
      unfold running in Hin. rewrite E in Hin. specialize (S _ Hin). lia.
    + assumption.
    + rewrite B in T by lia. discriminate.
Qed.

(** ** Integer reductions *)

Lemma vreduce_ind {A} (op : A -> A -> A) W v (P : nat -> A -> Prop) :
  (0 < W)%nat -> P 1%nat (v O) ->
  (forall k acc, (0 < k < W)%nat -> P k acc -> P (S k) (op acc (v k))) ->
  P W (vreduce op W v).
Proof.
  intros HW H0 HS. destruct W as [|k]; [lia|]. cbn [vreduce].
  assert (G : forall n s acc, (0 < s)%nat -> (s + n = S k)%nat -> P s acc ->
    P (s + n)%nat (fold_left (fun acc i => op acc (v i)) (seq s n) acc)).
  { induction n as [|n IH]; intros s acc Hs E Hp; cbn [seq fold_left].
    - rewrite Nat.add_0_r. assumption.
    - rewrite <- plus_n_Sm. apply (IH (S s)); try lia. apply HS; [lia|assumption]. }
  change (S k) with (1 + k)%nat. apply G; trivial; lia.
Qed.

Lemma running_succ k mask : running (S k) mask = running k mask ++ (if mask k then [k] else []).
Proof.
  unfold running. rewrite seq_S, filter_app. cbn [filter plus]. reflexivity.
Qed.

Lemma total_app l1 l2 : total (l1 ++ l2) = total l1 + total l2.
Proof. induction l1 as [|x l IH]; cbn [app total]; lia. Qed.

Lemma is_wrap_s_intro n x r : 0 < n -> r = wraps n x -> is_wrap_s n x r.
Proof.
  intros Hn ->. split; [apply wraps_range; assumption|].
  unfold wraps. exists ((x + 2 ^ (n - 1)) / 2 ^ n).
  pose proof (pow2_pos n ltac:(lia)) as Hp.
  pose proof (Z.div_mod (x + 2 ^ (n - 1)) (2 ^ n) ltac:(lia)) as E. lia.
Qed.

Lemma is_wrap_u_intro n x r : 0 < n -> r = wrapu n x -> is_wrap_u n x r.
Proof.
  intros Hn ->. split; [apply wrapu_range; lia|].
  unfold wrapu. exists (x / 2 ^ n).
  pose proof (pow2_pos n ltac:(lia)) as Hp.
  pose proof (Z.div_mod x (2 ^ n) ltac:(lia)) as E. lia.
Qed.

Lemma wraps_add_l n x y : 0 < n -> wraps n (wraps n x + y) = wraps n (x + y).
Proof.
  intros Hn. apply wraps_congr. rewrite <- wrapu_add_l. rewrite wrapu_wraps by assumption.
  apply wrapu_add_l.
Qed.

Lemma reduce_add_s_ok n W mask x : 0 < n -> (0 < W)%nat ->
  (forall l, (l < W)%nat -> mask l = true -> in_s n (x l)) ->
  is_wrap_s n (total (running_values W mask x)) (reduce_add_s n W mask x).
Proof.
  intros Hn HW Hx. apply is_wrap_s_intro; [assumption|].
  unfold reduce_add_s.
  apply (vreduce_ind _ W _ (fun k acc => acc = wraps n (total (running_values k mask x)))); trivial.
  - unfold running_values, running. cbn [seq filter]. destruct (mask O) eqn:M; cbn [map total].
    + rewrite Z.add_0_r. symmetry. apply wraps_id; auto.
    + symmetry. apply wraps_id; [assumption|]. unfold in_s. pose proof (pow2_pos (n - 1) ltac:(lia)). lia.
  - intros k acc Hk ->. unfold running_values. rewrite running_succ, map_app, total_app.
    rewrite wraps_add_l by assumption. f_equal. f_equal. destruct (mask k); cbn; lia.
Qed.

Lemma reduce_add_u_ok n W mask x : 0 < n -> (0 < W)%nat ->
  (forall l, (l < W)%nat -> mask l = true -> in_u n (x l)) ->
  is_wrap_u n (total (running_values W mask x)) (reduce_add_u n W mask x).
Proof.
  intros Hn HW Hx. apply is_wrap_u_intro; [assumption|].
  unfold reduce_add_u.
  apply (vreduce_ind _ W _ (fun k acc => acc = wrapu n (total (running_values k mask x)))); trivial.
  - unfold running_values, running. cbn [seq filter]. destruct (mask O) eqn:M; cbn [map total].
    + rewrite Z.add_0_r. symmetry. apply wrapu_id; auto.
    + symmetry. apply wrapu_id. unfold in_u. pose proof (pow2_pos n ltac:(lia)). lia.
  - intros k acc Hk ->. unfold running_values. rewrite running_succ, map_app, total_app.
    rewrite wrapu_add_l. f_equal. f_equal. destruct (mask k); cbn; lia.
Qed.

(** Minimum / maximum with an identity for the off lanes. *)
Lemma vreduce_min_ok W mask x hi : (0 < W)%nat ->
  (forall l, (l < W)%nat -> mask l = true -> x l <= hi) ->
  (exists l, In l (running W mask)) ->
  is_min (running_values W mask x) (vreduce Z.min W (fun l => if mask l then x l else hi)).
Proof.
  intros HW Hx [l0 Hl0].
  pose (P := fun (k : nat) acc => (forall y, In y (running_values k mask x) -> acc <= y) /\ acc <= hi /\
                          (acc = hi \/ In acc (running_values k mask x))).
  assert (H : P W (vreduce Z.min W (fun l => if mask l then x l else hi))).
  { apply vreduce_ind; trivial; unfold P, running_values.
    - rewrite running_succ. cbn [running seq filter app]. unfold running; cbn [seq filter app].
      destruct (mask O) eqn:M; cbn [map In].
      + specialize (Hx O HW M). intuition lia.
      + intuition lia.
    - intros k acc Hk (A & B & C). rewrite running_succ, map_app.
      destruct (mask k) eqn:M; cbn [map].
      + specialize (Hx k ltac:(lia) M). split; [|split].
        * intros y Hy. apply in_app_or in Hy. destruct Hy as [Hy|[<-|[]]]; [specialize (A _ Hy)|]; lia.
        * lia.
        * destruct (Z.min_spec acc (x k)) as [[? ->]|[? ->]].
          -- destruct C as [C|C]; [left; assumption|right; apply in_or_app; left; assumption].
          -- right. apply in_or_app. right. left. reflexivity.
      + rewrite app_nil_r. rewrite Z.min_l by lia. auto. }
  destruct H as (A & B & C). split; [|assumption].
  destruct C as [C|C]; [|assumption].
  assert (Hl : In (x l0) (running_values W mask x)) by (apply in_map; assumption).
  specialize (A _ Hl). apply in_running in Hl0. specialize (Hx l0 ltac:(tauto) ltac:(tauto)).
  replace (vreduce Z.min W (fun l => if mask l then x l else hi)) with (x l0) by lia. assumption.
Qed.

Lemma vreduce_max_ok W mask x lo : (0 < W)%nat ->
  (forall l, (l < W)%nat -> mask l = true -> lo <= x l) ->
  (exists l, In l (running W mask)) ->
  is_max (running_values W mask x) (vreduce Z.max W (fun l => if mask l then x l else lo)).
Proof.
  intros HW Hx [l0 Hl0].
  pose (P := fun (k : nat) acc => (forall y, In y (running_values k mask x) -> y <= acc) /\ lo <= acc /\
                          (acc = lo \/ In acc (running_values k mask x))).
  assert (H : P W (vreduce Z.max W (fun l => if mask l then x l else lo))).
  { apply vreduce_ind; trivial; unfold P, running_values.
    - rewrite running_succ. unfold running; cbn [seq filter app].
      destruct (mask O) eqn:M; cbn [map In].
      + specialize (Hx O HW M). intuition lia.
      + intuition lia.
    - intros k acc Hk (A & B & C). rewrite running_succ, map_app.
      destruct (mask k) eqn:M; cbn [map].
      + specialize (Hx k ltac:(lia) M). split; [|split].
        * intros y Hy. apply in_app_or in Hy. destruct Hy as [Hy|[<-|[]]]; [specialize (A _ Hy)|]; lia.
        * lia.
        * destruct (Z.max_spec acc (x k)) as [[? ->]|[? ->]].
          -- right. apply in_or_app. right. left. reflexivity.
          -- destruct C as [C|C]; [left; assumption|right; apply in_or_app; left; assumption].
      + rewrite app_nil_r. rewrite Z.max_l by lia. auto. }
  destruct H as (A & B & C). split; [|assumption].
  destruct C as [C|C]; [|assumption].
  assert (Hl : In (x l0) (running_values W mask x)) by (apply in_map; assumption).
  specialize (A _ Hl). apply in_running in Hl0. specialize (Hx l0 ltac:(tauto) ltac:(tauto)).
  replace (vreduce Z.max W (fun l => if mask l then x l else lo)) with (x l0) by lia. assumption.
Qed.
