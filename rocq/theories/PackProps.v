(** C18 on the avx2-i32x8 target: packed_store_active2 of 4- and 8-byte integers.

    Statements only; the proofs are in PackProofs.v and the specification in LanesSpec.v. *)
From Coq Require Import ZArith List Bool Lia.
From Verif Require Import LanesModel LanesSpec PackModel PackProofs.
Import ListNotations.
Local Open Scope Z_scope.

(* Lanes 1, 2, 4 and 7 run. *)
Definition ex_mask : nat -> bool := fun l => nth l [false; true; true; false; true; false; false; true] false.

(** packed_store_active2 of 4-byte integers writes the values of the running lanes next to each
    other in lane order, touches nothing else (not even the extra element it may write by its
    documentation) and returns their number, for every mask and memory. *)
Theorem C18_avx2_store_i32 : forall mask v p m,
  let '(m', n) := packed_store_active2_i32 mask v p m in
  n = Z.of_nat (length (running 8 mask)) /\
  holds_at m' p (running_values 8 mask v) /\ unchanged_outside m m' p n.
Proof. exact store_i32_ok. Qed.

Example C18_avx2_store_i32_used :
  running 8 ex_mask = [1; 2; 4; 7]%nat /\
  let '(m', n) := packed_store_active2_i32 ex_mask (fun l => 10 + Z.of_nat l) 100 (fun _ => 0) in
  (n, map m' [99; 100; 101; 102; 103; 104]) = (4, [0; 11; 12; 14; 17; 0]).
Proof. split; vm_compute; reflexivity. Qed.

(** The same for 8-byte integers: memory and vector are in 4-byte words, lane l has words 2 * l and
    2 * l + 1. *)
Theorem C18_avx2_store_i64 : forall mask v p m,
  let '(m', n) := packed_store_active2_i64 mask v p m in
  n = Z.of_nat (length (running 8 mask)) /\
  holds_at m' p (flat_map (fun l => [v (2 * l)%nat; v (2 * l + 1)%nat]) (running 8 mask)) /\
  unchanged_outside m m' p (2 * n).
Proof.
  intros mask v p m. pose proof (store_i64_ok mask v p m) as H.
  destruct (packed_store_active2_i64 mask v p m) as [m' n].
  rewrite words_values in H. exact H.
Qed.

Example C18_avx2_store_i64_used :
  let '(m', n) := packed_store_active2_i64 ex_mask (fun w => 10 + Z.of_nat w) 100 (fun _ => 0) in
  (n, map m' [99; 100; 101; 102; 103; 104; 105; 106; 107; 108]) =
  (4, [0; 12; 13; 14; 15; 18; 19; 24; 25; 0]).
Proof. vm_compute. reflexivity. Qed.

(** The stores agree with packed_store_active, which may be used in place of packed_store_active2. *)
Theorem C18_avx2_store_agrees : forall mask v p m a,
  let '(m1, n1) := packed_store_active2_i32 mask v p m in
  let '(m2, n2) := packed_store_active 8 mask v p m in
  m1 a = m2 a /\ n1 = n2.
Proof. exact store_i32_agrees. Qed.

Example C18_avx2_store_agrees_used :
  fst (packed_store_active 8 ex_mask (fun l => 10 + Z.of_nat l) 100 (fun _ => 0)) 103 = 17.
Proof. vm_compute. reflexivity. Qed.

Print Assumptions C18_avx2_store_i32.
Print Assumptions C18_avx2_store_i64.
Print Assumptions C18_avx2_store_agrees.
