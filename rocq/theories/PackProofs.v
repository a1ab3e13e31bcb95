(** Proofs about packed stores by bit deposit and extract. *)
From Coq Require Import ZArith List Bool Lia.
From Verif Require Import Bits LanesModel LanesSpec PackModel.
From Verif Require LanesProofs2.
Import ListNotations.
Local Open Scope Z_scope.

Lemma maskstore_ok : forall sign v p m n, (n <= 8)%nat -> filter sign (seq 0 8) = seq 0 n ->
  holds_at (maskstore sign v p m) p (map v (seq 0 n)) /\
  unchanged_outside m (maskstore sign v p m) p (Z.of_nat n).
Proof.
  intros sign v p m n Hn F.
  assert (S1 : forall j, (j < 8)%nat -> sign j = Nat.ltb j n).
  { intros j Hj. destruct (sign j) eqn:E; symmetry.
    - apply Nat.ltb_lt. assert (In j (filter sign (seq 0 8))).
      { apply filter_In. split; [apply in_seq; lia | exact E]. }
      rewrite F in H. apply in_seq in H. lia.
    - apply Nat.ltb_ge. destruct (Nat.le_gt_cases n j) as [?|L]; [assumption|]. exfalso.
      assert (In j (seq 0 n)) by (apply in_seq; lia).
      rewrite <- F in H. apply filter_In in H. destruct H. congruence. }
  split.
  - intros j Hj. rewrite map_length, seq_length in Hj. unfold maskstore.
    destruct (Z.leb_spec p (p + Z.of_nat j)); [|lia].
    destruct (Z.ltb_spec (p + Z.of_nat j) (p + 8)); [|lia].
    replace (Z.to_nat (p + Z.of_nat j - p)) with j by lia.
    rewrite S1 by lia. destruct (Nat.ltb_spec j n); [|lia]. cbn [andb].
    rewrite nth_indep with (d' := v 0%nat) by (rewrite map_length, seq_length; lia).
    rewrite map_nth. now rewrite seq_nth by lia.
  - intros a Ha. unfold maskstore.
    destruct (Z.leb_spec p a); [|reflexivity]. destruct (Z.ltb_spec a (p + 8)); [|reflexivity].
    rewrite S1 by lia. destruct (Nat.ltb_spec (Z.to_nat (a - p)) n); [lia | reflexivity].
Qed.

(* The eight mask bits as a list. *)
Definition of8 (b0 b1 b2 b3 b4 b5 b6 b7 : bool) : nat -> bool :=
  fun l => nth l [b0; b1; b2; b3; b4; b5; b6; b7] false.

Lemma movmsk_of8 : forall mask, movmsk 8 mask =
  movmsk 8 (of8 (mask 0) (mask 1) (mask 2) (mask 3) (mask 4) (mask 5) (mask 6) (mask 7))%nat.
Proof. reflexivity. Qed.

Lemma running_of8 : forall mask, running 8 mask =
  running 8 (of8 (mask 0) (mask 1) (mask 2) (mask 3) (mask 4) (mask 5) (mask 6) (mask 7))%nat.
Proof. reflexivity. Qed.

(* What the i32 code computes from a mask. *)
Definition table32 (mask : nat -> bool) : Prop :=
  let bits := movmsk 8 mask in
  let n := length (running 8 mask) in
  ctpop32 bits = Z.of_nat n /\
  filter (store_sign32 (Z.of_nat n)) (seq 0 8) = seq 0 n /\
  map (fun l => Z.to_nat (take32 bits l mod 8)) (seq 0 n) = running 8 mask.

Lemma table32_ok : forall b0 b1 b2 b3 b4 b5 b6 b7, table32 (of8 b0 b1 b2 b3 b4 b5 b6 b7).
Proof. intros [] [] [] [] [] [] [] []; vm_compute; repeat split. Qed.

Lemma running_le : forall W mask, (length (running W mask) <= W)%nat.
Proof.
  intros W mask. unfold running.
  assert (forall l : list nat, (length (filter mask l) <= length l)%nat) as G.
  { induction l as [|x l IH]; cbn; [lia|]. destruct (mask x); cbn; lia. }
  specialize (G (seq 0 W)). now rewrite seq_length in G.
Qed.

Lemma permd_map : forall v idx n,
  map (permd v idx) (seq 0 n) = map v (map (fun l => Z.to_nat (idx l mod 8)) (seq 0 n)).
Proof. intros. now rewrite map_map. Qed.

Lemma store_i32_ok : forall mask v p m,
  let '(m', n) := packed_store_active2_i32 mask v p m in
  n = Z.of_nat (length (running 8 mask)) /\
  holds_at m' p (running_values 8 mask v) /\ unchanged_outside m m' p n.
Proof.
  intros mask v p m. unfold packed_store_active2_i32.
  destruct (table32_ok (mask 0) (mask 1) (mask 2) (mask 3) (mask 4) (mask 5) (mask 6) (mask 7))%nat
    as (C & S1 & T).
  rewrite <- (movmsk_of8 mask), <- (running_of8 mask) in C.
  rewrite <- (running_of8 mask) in S1. rewrite <- (movmsk_of8 mask), <- (running_of8 mask) in T.
  rewrite C. split; [reflexivity|].
  destruct (maskstore_ok _ (permd v (take32 (movmsk 8 mask))) p m _ (running_le 8 mask) S1) as [H U].
  split; [|exact U]. rewrite permd_map, T in H. exact H.
Qed.

(* The words of the lanes of a list. *)
Definition words (l : list nat) : list nat := flat_map (fun i => [2 * i; 2 * i + 1]%nat) l.

Definition table64 (mask : nat -> bool) : Prop :=
  let bits := movmsk 8 mask in
  let low := filter mask [0; 1; 2; 3]%nat in
  let high := filter (fun l => mask (4 + l)%nat) [0; 1; 2; 3]%nat in
  let spread1 := pdep bits 16843009 in
  let spread2 := pdep (Z.shiftr bits 4) 16843009 in
  (ctpop32 spread1 = Z.of_nat (length low) /\
   filter (store_sign64 (Z.of_nat (length low))) (seq 0 8) = seq 0 (2 * length low) /\
   map (fun l => Z.to_nat (take64 spread1 l mod 8)) (seq 0 (2 * length low)) = words low) /\
  (ctpop32 spread2 = Z.of_nat (length high) /\
   filter (store_sign64 (Z.of_nat (length high))) (seq 0 8) = seq 0 (2 * length high) /\
   map (fun l => Z.to_nat (take64 spread2 l mod 8)) (seq 0 (2 * length high)) = words high) /\
  words (running 8 mask) = words low ++ map (fun w => 8 + w)%nat (words high) /\
  (length (running 8 mask) = length low + length high)%nat /\
  (length low <= 4)%nat /\ (length high <= 4)%nat.

Lemma table64_ok : forall b0 b1 b2 b3 b4 b5 b6 b7, table64 (of8 b0 b1 b2 b3 b4 b5 b6 b7).
Proof. intros [] [] [] [] [] [] [] []; vm_compute; repeat split; repeat constructor. Qed.

Lemma table64_mask : forall mask, table64 mask <-> table64
  (of8 (mask 0) (mask 1) (mask 2) (mask 3) (mask 4) (mask 5) (mask 6) (mask 7))%nat.
Proof.
  intros. unfold table64. rewrite <- (movmsk_of8 mask), <- (running_of8 mask). reflexivity.
Qed.

Lemma words_length : forall l, length (words l) = (2 * length l)%nat.
Proof. induction l as [|x l IH]; cbn [words flat_map app length] in *; [reflexivity | unfold words in *; lia]. Qed.

Lemma store_i64_ok : forall mask v p m,
  let '(m', n) := packed_store_active2_i64 mask v p m in
  n = Z.of_nat (length (running 8 mask)) /\
  holds_at m' p (map v (words (running 8 mask))) /\ unchanged_outside m m' p (2 * n).
Proof.
  intros mask v p m. unfold packed_store_active2_i64.
  pose proof (proj2 (table64_mask mask)
    (table64_ok (mask 0) (mask 1) (mask 2) (mask 3) (mask 4) (mask 5) (mask 6) (mask 7))%nat)
    as ((C1 & S1 & T1) & (C2 & S2 & T2) & R & L & L1 & L2).
  set (low := filter mask [0; 1; 2; 3]%nat) in *.
  set (high := filter (fun l => mask (4 + l)%nat) [0; 1; 2; 3]%nat) in *.
  rewrite C1, C2. split; [lia|].
  destruct (maskstore_ok _ (permd v (take64 (pdep (movmsk 8 mask) 16843009))) p m
              (2 * length low) ltac:(lia) S1) as [H1 U1].
  set (m1 := maskstore (store_sign64 (Z.of_nat (length low))) _ p m) in *.
  destruct (maskstore_ok _ (permd (fun w => v (8 + w)%nat)
              (take64 (pdep (Z.shiftr (movmsk 8 mask) 4) 16843009)))
              (p + 2 * Z.of_nat (length low)) m1 (2 * length high) ltac:(lia) S2) as [H2 U2].
  rewrite permd_map, T1 in H1. rewrite permd_map, T2 in H2.
  split.
  - rewrite R, map_app, map_map. intros j Hj.
    rewrite app_length, !map_length, !words_length in Hj.
    destruct (Nat.lt_ge_cases j (2 * length low)) as [A|A].
    + rewrite app_nth1 by (rewrite map_length, words_length; lia).
      rewrite U2 by lia. apply H1. now rewrite map_length, words_length.
    + rewrite app_nth2 by (rewrite map_length, words_length; lia).
      rewrite map_length, words_length.
      rewrite <- H2 by (rewrite map_length, words_length; lia).
      f_equal. lia.
  - intros a Ha. rewrite U2 by lia. apply U1. lia.
Qed.

Lemma words_values : forall (v : nat -> Z) l,
  map v (words l) = flat_map (fun i => [v (2 * i)%nat; v (2 * i + 1)%nat]) l.
Proof.
  intros v l. unfold words. induction l as [|x l IH]; [reflexivity|].
  cbn [flat_map]. rewrite map_app, IH. reflexivity.
Qed.

Lemma store_i32_agrees : forall mask v p m a,
  let '(m1, n1) := packed_store_active2_i32 mask v p m in
  let '(m2, n2) := packed_store_active 8 mask v p m in
  m1 a = m2 a /\ n1 = n2.
Proof.
  intros mask v p m a. pose proof (store_i32_ok mask v p m) as A.
  pose proof (LanesProofs2.packed_store_ok 8 mask v p m ltac:(lia)) as B.
  destruct (packed_store_active2_i32 mask v p m) as [m1 n1].
  destruct (packed_store_active 8 mask v p m) as [m2 n2].
  destruct A as (N1 & H1 & U1). destruct B as (N2 & H2 & U2). split; [|congruence].
  destruct (Z.lt_ge_cases a p) as [L|L]; [rewrite U1, U2 by lia; reflexivity|].
  destruct (Z.lt_ge_cases a (p + n1)) as [L'|L']; [|rewrite U1, U2 by lia; reflexivity].
  replace a with (p + Z.of_nat (Z.to_nat (a - p))) by lia.
  rewrite H1, H2; [reflexivity| |]; unfold running_values; rewrite map_length; lia.
Qed.
