From Coq Require Import ZArith List Bool Lia.
From Verif Require Import Bits LanesModel LanesSpec LanesProofs ForeachModel ForeachSpec ForeachProofs4
  AtomicsModel NumModel NumSpec NumProofs.
Import ListNotations.
Local Open Scope Z_scope.

(** ** Division *)

Definition quotient (op : divop) (x y : Z) : Z :=
  match op with SDiv | UDiv => Z.quot x y | SRem | URem => Z.rem x y end.

Lemma div_scalar_some n op x y : div_defined (is_signed_div op) n x y ->
  div_scalar n op x y = Some (quotient op x y).
Proof.
  intros [H1 H2]. unfold div_scalar. destruct (Z.eqb_spec y 0); [contradiction|].
  destruct (is_signed_div op) eqn:S; cbn [andb]; [|reflexivity].
  destruct (Z.eqb_spec x (- 2 ^ (n - 1))); cbn [andb]; [|reflexivity].
  destruct (Z.eqb_spec y (-1)); [|reflexivity]. exfalso. apply H2. auto.
Qed.

Lemma div_scalar_none n op x y : ~ div_defined (is_signed_div op) n x y -> div_scalar n op x y = None.
Proof.
  intros H. unfold div_scalar. destruct (Z.eqb_spec y 0); [reflexivity|].
  destruct (is_signed_div op && (x =? - 2 ^ (n - 1)) && (y =? -1)) eqn:E; [reflexivity|].
  exfalso. apply H. split; [assumption|]. intros (S & -> & ->). rewrite S, !Z.eqb_refl in E. discriminate.
Qed.

Lemma quot_cdiv x y : y <> 0 -> is_cdiv x y (Z.quot x y) (Z.rem x y).
Proof.
  intros Hy. pose proof (Z.quot_rem' x y) as E. pose proof (Z.rem_bound_abs x y Hy) as B.
  split; [lia|]. split; [exact B|].
  destruct (Z.eq_dec (Z.rem x y) 0) as [|Hr]; [now left|]. right.
  pose proof (Z.rem_sign_mul x y Hy) as S.
  assert (x <> 0) by (intros ->; rewrite Z.rem_0_l in Hr by exact Hy; contradiction).
  destruct (Z.lt_trichotomy (Z.rem x y) 0) as [|[|]]; [right|contradiction|left]; split; auto; nia.
Qed.

Lemma div_vector_some n op W a b :
  (forall l, (l < W)%nat -> div_defined (is_signed_div op) n (a l) (b l)) ->
  exists r, div_vector n op W a b = Some r /\ forall l, (l < W)%nat -> r l = quotient op (a l) (b l).
Proof.
  intros H. unfold div_vector.
  replace (forallb _ (lanes W)) with true.
  2:{ symmetry. apply forallb_forall. intros l Hl. apply in_seq in Hl. rewrite div_scalar_some by (apply H; lia). reflexivity. }
  eexists. split; [reflexivity|]. intros l Hl. cbn beta. rewrite div_scalar_some by (apply H; lia). reflexivity.
Qed.

Lemma div_vector_none n op W a b l : (l < W)%nat -> ~ div_defined (is_signed_div op) n (a l) (b l) ->
  div_vector n op W a b = None.
Proof.
  intros Hl H. unfold div_vector. replace (forallb _ (lanes W)) with false; [reflexivity|].
  symmetry. apply not_true_iff_false. intros F. rewrite forallb_forall in F.
  specialize (F l). rewrite div_scalar_none in F by exact H. discriminate F. apply in_seq. lia.
Qed.

Lemma in_turn_pointwise {A} (W : nat) (q : nat -> A) : forall ls r r',
  in_turn (fun l r r' => r' l = q l /\ forall k, (k < W)%nat -> k <> l -> r' k = r k) ls r r' ->
  (forall l, In l ls -> (l < W)%nat) ->
  forall k, (k < W)%nat -> In k ls -> r' k = q k.
Proof.
  assert (G : forall ls r r', in_turn (fun l r r' => r' l = q l /\ forall k, (k < W)%nat -> k <> l -> r' k = r k) ls r r' ->
     forall k, (k < W)%nat -> r k = q k -> r' k = q k).
  { induction ls as [|l ls IH]; intros r r' H k Hk E; [cbn in H; now subst|].
    destruct H as (r1 & [H1 H2] & H). apply (IH r1); auto.
    destruct (Nat.eq_dec k l); [now subst|]. now rewrite H2. }
  induction ls as [|l ls IH]; intros r r' H Hls k Hk Hin; [destruct Hin|].
  destruct H as (r1 & [H1 H2] & H). destruct Hin as [->|Hin].
  - apply (G ls r1); auto.
  - apply (IH r1); auto. intros; apply Hls; now right.
Qed.

Lemma idiv_builtin_some n op W mask a b : (W <= 64)%nat -> running W mask <> [] ->
  (forall l, In l (running W mask) -> div_defined (is_signed_div op) n (a l) (b l)) ->
  exists N r, (forall fuel, (N <= fuel)%nat -> idiv_builtin n op W mask fuel a b = Some r) /\
    forall l, In l (running W mask) -> r l = quotient op (a l) (b l).
Proof.
  intros HW Hne HD. unfold idiv_builtin.
  destruct (each_active W mask
    (fun (_ : nat) i im res =>
       match extract W a i, extract W b i with
       | Some x, Some y =>
           match div_scalar n op x y with
           | Some q => Some (fun l : nat => if im l : bool then insert res (Z.to_nat i) q l else res l)
           | None => None
           end
       | _, _ => None
       end)
    (fun l (r r' : nat -> Z) => r' l = quotient op (a l) (b l) /\ forall k, (k < W)%nat -> k <> l -> r' k = r k)
    HW Hne) with (s := fun _ : nat => 0) as (N & r & E & T).
  - intros l im s Hl Him. assert (HlW : (l < W)%nat) by (apply running_In in Hl; tauto).
    exists O. eexists. split; cycle 1.
    + intros fuel _. rewrite !extract_at by exact HlW. rewrite div_scalar_some by auto. reflexivity.
    + cbn beta. rewrite Nat2Z.id. unfold insert. split.
      * rewrite Nat.eqb_refl. replace (im l) with true; [reflexivity|]. symmetry. now apply Him.
      * intros k Hk Hne'. apply Nat.eqb_neq in Hne'. rewrite Hne'. now destruct (im k).
  - exists N, r. split; [exact E|]. intros l Hl.
    apply (in_turn_pointwise W (fun l => quotient op (a l) (b l)) _ _ _ T); auto.
    + intros k Hk. apply running_In in Hk. tauto.
    + apply running_In in Hl. tauto.
Qed.

Lemma idiv_builtin_all_off n op W mask a b fuel : (W <= 64)%nat -> running W mask = [] ->
  idiv_builtin n op W mask fuel a b = None.
Proof.
  intros HW E. unfold idiv_builtin, foreach_active_do.
  rewrite foreach_active_all_off; auto.
Qed.

Theorem varying_division_some n op W mask a b : (W <= 64)%nat -> running W mask <> [] ->
  (forall l, In l (running W mask) -> div_defined (is_signed_div op) n (a l) (b l)) ->
  exists N r, (forall fuel, (N <= fuel)%nat -> varying_division false n op W mask fuel a (Value b) = Some r) /\
    forall l, In l (running W mask) -> r l = quotient op (a l) (b l).
Proof.
  intros HW Hne HD. cbn [varying_division]. unfold vector_int_division.
  destruct (b_all W mask) eqn:B.
  - rewrite b_all_spec in B by exact HW. rewrite forallb_forall in B.
    destruct (div_vector_some n op W a b) as (r & E & V).
    + intros l Hl. apply HD. apply running_In. split; [exact Hl|]. apply B. apply in_seq. lia.
    + exists O, r. split; [auto|]. intros l Hl. apply V. apply running_In in Hl. tauto.
  - apply idiv_builtin_some; auto.
Qed.

(** ** Bit counting *)

Lemma ctlz_from_spec x : forall k, is_clz (Z.of_nat k) x (ctlz_from k x).
Proof.
  induction k as [|k IH].
  - cbn. repeat split; lia.
  - cbn [ctlz_from]. rewrite Nat2Z.inj_succ. destruct IH as (A & B & C).
    destruct (Z.testbit x (Z.of_nat k)) eqn:E.
    + split; [lia|]. split; [lia|]. intros _. now replace (Z.succ (Z.of_nat k) - 1 - 0) with (Z.of_nat k) by lia.
    + split; [lia|]. split.
      * intros i Hi. destruct (Z.eq_dec i (Z.of_nat k)); [now subst|]. apply B. lia.
      * intros H. replace (Z.succ (Z.of_nat k) - 1 - (1 + ctlz_from k x)) with (Z.of_nat k - 1 - ctlz_from k x) by lia.
        apply C. lia.
Qed.

Lemma cttz_from_spec x : forall k i, 
  let r := cttz_from k x i in
  i <= r <= i + Z.of_nat k /\ (forall j, i <= j < r -> Z.testbit x j = false) /\
  (r < i + Z.of_nat k -> Z.testbit x r = true).
Proof.
  induction k as [|k IH]; intros i; cbn [cttz_from].
  - cbv zeta. repeat split; lia.
  - destruct (Z.testbit x i) eqn:E; cbv zeta.
    + repeat split; try lia. auto.
    + specialize (IH (i + 1)). cbv zeta in IH. destruct IH as (A & B & C).
      split; [lia|]. split.
      * intros j Hj. destruct (Z.eq_dec j i); [now subst|]. apply B. lia.
      * intros H. apply C. lia.
Qed.

Lemma cttz_spec n x : is_ctz (Z.of_nat n) x (cttz n x).
Proof. pose proof (cttz_from_spec x n 0) as (A & B & C). split; [exact A|]. split; [exact B|exact C]. Qed.

Lemma ctpop_spec x : forall n, ctpop n x = bit_count n x.
Proof.
  unfold bit_count. induction n as [|n IH]; [reflexivity|].
  cbn [ctpop]. rewrite seq_S, filter_app, app_length, Nat2Z.inj_add, <- IH. cbn [filter plus].
  destruct (Z.testbit x (Z.of_nat n)); reflexivity.
Qed.

Lemma filter_length_le {A} (f : A -> bool) xs : (length (filter f xs) <= length xs)%nat.
Proof. induction xs as [|x xs IH]; cbn; [lia|]. destruct (f x); cbn; lia. Qed.

Lemma bit_count_range n x : 0 <= bit_count n x <= Z.of_nat n.
Proof.
  unfold bit_count. pose proof (filter_length_le (fun i => Z.testbit x (Z.of_nat i)) (seq 0 n)) as H.
  rewrite seq_length in H. lia.
Qed.

Lemma lane_loop_spec W f im v : forall k i r, (i + k = W)%nat ->
  exists r', lane_loop W k (Z.of_nat i) f im v r = Some r' /\
    (forall l, (i <= l < W)%nat -> im l = true -> r' l = Some (f (v l))) /\
    (forall l, (l < i)%nat -> r' l = r l).
Proof.
  induction k as [|k IH]; intros i r Hik; cbn [lane_loop].
  - exists r. split; [reflexivity|]. split; [intros; lia|auto].
  - rewrite extract_at by lia.
    destruct (IH (S i) (insert_masked im r (Z.of_nat i) (f (v i)))) as (r' & E & A & B); [lia|].
    replace (Z.of_nat i + 1) with (Z.of_nat (S i)) by lia.
    exists r'. split; [exact E|]. split.
    + intros l Hl Hm. destruct (Nat.eq_dec l i) as [->|Hne]; [|apply A; [lia|exact Hm]].
      rewrite B by lia. unfold insert_masked. rewrite Hm. unfold insert. now rewrite Nat2Z.id, Nat.eqb_refl.
    + intros l Hl. rewrite B by lia. unfold insert_masked, insert. rewrite Nat2Z.id.
      assert (l <> i) as Hne by lia. apply Nat.eqb_neq in Hne. rewrite Hne. now destruct (im l).
Qed.

Lemma clz_varying_spec n W mask v : exists r, clz_varying n W mask v = Some r /\
  forall l, In l (running W mask) -> exists c, r l = Some c /\ is_clz (Z.of_nat n) (v l) c.
Proof.
  destruct (lane_loop_spec W (ctlz n) mask v W 0 (fun _ => None)) as (r & E & A & _); [lia|].
  exists r. split; [exact E|]. intros l Hl. apply running_In in Hl as [Hl Hm].
  exists (ctlz n (v l)). split; [apply A; [lia|exact Hm]|]. apply ctlz_from_spec.
Qed.

Lemma clz_vector_spec n v l : (n <= 64)%nat -> is_clz (Z.of_nat n) (v l) (clz_vector n v l).
Proof.
  intros Hn. unfold clz_vector. pose proof (ctlz_from_spec (v l) n) as H. destruct (Nat.eqb_spec n 64); [|exact H].
  subst n. rewrite wraps_id; [exact H|lia|]. destruct H as [H _]. unfold in_s. unfold ctlz.
  change (2 ^ (32 - 1)) with 2147483648. lia.
Qed.

Lemma popcnt_varying_spec n W mask v : (n <= 64)%nat -> exists r, popcnt_varying n W mask v = Some r /\
  (forall l, In l (running W mask) -> r l = Some (bit_count n (v l))) /\
  (forall l, (l < W)%nat -> mask l = false -> r l = Some 0).
Proof.
  intros Hn. unfold popcnt_varying.
  destruct (lane_loop_spec W (fun x => wraps 32 (ctpop n x)) (fun _ => true) v W 0 (fun _ => None)) as (r & E & A & _); [lia|].
  change (Z.of_nat 0) with 0 in E. rewrite E. eexists. split; [reflexivity|]. split.
  - intros l Hl. apply running_In in Hl as [Hl Hm]. rewrite Hm, A by (auto; lia). f_equal.
    rewrite ctpop_spec. apply wraps_id; [lia|]. pose proof (bit_count_range n (v l)). unfold in_s.
    change (2 ^ (32 - 1)) with 2147483648. lia.
  - intros l Hl Hm. now rewrite Hm.
Qed.

Lemma popcnt_bool_spec W mask v : (W <= 64)%nat ->
  popcnt_bool W mask v = Z.of_nat (length (running W (fun l => mask l && v l))).
Proof.
  intros HW. unfold popcnt_bool. rewrite ctpop_spec.
  assert (E : bit_count 64 (movmsk W (fun l => v l && mask l)) = Z.of_nat (length (running W (fun l => mask l && v l)))).
  { unfold bit_count, running. f_equal. f_equal.
    replace 64%nat with (W + (64 - W))%nat by lia. rewrite seq_app, filter_app.
    transitivity (filter (fun l => mask l && v l) (seq 0 W) ++ []); [|apply app_nil_r]. f_equal.
    - apply filter_ext_in. intros l Hl. apply in_seq in Hl. rewrite movmsk_testbit by lia.
      rewrite Nat2Z.id. destruct (Z.ltb_spec (Z.of_nat l) (Z.of_nat W)); [|lia]. cbn [andb]; apply andb_comm.
    - assert (G : forall (f : nat -> bool) xs, (forall l, In l xs -> f l = false) -> filter f xs = []).
      { clear. induction xs as [|x xs IH]; intros H; [reflexivity|]. cbn. rewrite H by now left. apply IH. intros; apply H; now right. }
      apply G. intros l Hl. apply in_seq in Hl. rewrite movmsk_testbit by lia.
      destruct (Z.ltb_spec (Z.of_nat l) (Z.of_nat W)); [lia|reflexivity]. }
  rewrite E. apply wraps_id; [lia|]. unfold in_s. change (2 ^ (32 - 1)) with 2147483648.
  assert (length (running W (fun l => mask l && v l)) <= W)%nat.
  { unfold running. etransitivity; [apply filter_length_le|]. rewrite seq_length. lia. }
  lia.
Qed.
