(** C17 on the x86 targets: shuffles by permutation instructions.

    Statements only; the proofs are in ShufProofs.v and the specification in ShufSpec.v. *)
From Coq Require Import ZArith List Bool Lia.
From Verif Require Import LanesModel ShufModel ShufSpec ShufProofs.
Import ListNotations.
Local Open Scope Z_scope.

(* A reversal of 16 lanes. *)
Definition ex_perm : nat -> Z := fun l => 15 - Z.of_nat l.
Definition ex_vec : nat -> Z := fun l => 3 * Z.of_nat l + 1.

(** [shuffle(v, perm)] with every index inside the gang gives each lane the element its index
    names, on every target modelled and for every element size.  Missing: the other targets
    ([C17_shuffle] covers the code they share). *)
Theorem C17_x86_shuffle_partial : forall t e v perm,
  elements (bits_of e) (width t) v ->
  (forall l, (l < width t)%nat -> 0 <= perm l < Z.of_nat (width t)) ->
  exists r, x86_shuffle t e v perm = Done r /\
    forall l, (l < width t)%nat -> r l = Some (v (Z.to_nat (perm l))).
Proof. exact shuffle_all. Qed.

Example C17_x86_shuffle_used :
  (forall l, (l < width Skx16)%nat -> 0 <= ex_perm l < Z.of_nat (width Skx16)) /\
  elements (bits_of E64) (width Skx16) ex_vec /\
  match x86_shuffle Skx16 E64 ex_vec ex_perm with
  | Done r => map r [0; 5; 15]%nat = [Some 46; Some 31; Some 1]
  | Fault => False
  end.
Proof.
  split; [|split].
  - intros l H. unfold ex_perm. cbn [width] in *. lia.
  - intros l H. unfold ex_vec. cbn [width bits_of] in *. lia.
  - vm_compute. reflexivity.
Qed.

(** Where the shuffle stays in registers it always finishes, and a lane with an index inside the
    gang gets its element whatever indices the other lanes have (they may be off). *)
Theorem C17_x86_shuffle_running : forall t e v perm,
  through_memory t e = false -> elements (bits_of e) (width t) v ->
  exists r, x86_shuffle t e v perm = Done r /\
    forall l, 0 <= perm l < Z.of_nat (width t) -> r l = Some (v (Z.to_nat (perm l))).
Proof. exact shuffle_running. Qed.

Example C17_x86_shuffle_running_used :
  through_memory Avx2x16 E32 = false /\ elements (bits_of E32) (width Avx2x16) ex_vec /\
  match x86_shuffle Avx2x16 E32 ex_vec (fun l => if Nat.eqb l 3 then -1000 else ex_perm l) with
  | Done r => map r [0; 5; 15]%nat = [Some 46; Some 31; Some 1]
  | Fault => False
  end.
Proof.
  split; [reflexivity | split].
  - intros l H. unfold ex_vec. cbn [width bits_of] in *. lia.
  - vm_compute. reflexivity.
Qed.

(** The same for [shuffle(a, b, perm)] with indices into the two vectors placed one after the
    other.  Missing: the other targets ([C17_shuffle2] covers the code they share). *)
Theorem C17_x86_shuffle2_partial : forall t e a b perm,
  elements (bits_of e) (width t) a -> elements (bits_of e) (width t) b ->
  (forall l, (l < width t)%nat -> 0 <= perm l < 2 * Z.of_nat (width t)) ->
  exists r, x86_shuffle2 t e a b perm = Done r /\
    forall l, (l < width t)%nat -> r l = Some (element2 (width t) a b (perm l)).
Proof. exact shuffle2_all. Qed.

Example C17_x86_shuffle2_used :
  elements (bits_of E32) (width Avx2x8) ex_vec /\
  (forall l, (l < width Avx2x8)%nat -> 0 <= 2 * Z.of_nat l + 1 < 2 * Z.of_nat (width Avx2x8)) /\
  match x86_shuffle2 Avx2x8 E32 ex_vec (fun l => 100 + Z.of_nat l) (fun l => 2 * Z.of_nat l + 1) with
  | Done r => map r [0; 3; 4; 7]%nat = [Some 4; Some 22; Some 101; Some 107]
  | Fault => False
  end.
Proof.
  split; [|split].
  - intros l H. unfold ex_vec. cbn [width bits_of] in *. lia.
  - intros l H. cbn [width] in *. lia.
  - vm_compute. reflexivity.
Qed.

(** The shuffles of two vectors that stay in registers always finish, and a lane with an index
    inside the two vectors gets its element whatever indices the other lanes have. *)
Theorem C17_x86_shuffle2_running : forall t e a b perm,
  through_memory2 t e = false ->
  elements (bits_of e) (width t) a -> elements (bits_of e) (width t) b ->
  exists r, x86_shuffle2 t e a b perm = Done r /\
    forall l, 0 <= perm l < 2 * Z.of_nat (width t) -> r l = Some (element2 (width t) a b (perm l)).
Proof. exact shuffle2_running. Qed.

Example C17_x86_shuffle2_running_used :
  through_memory2 Skx8 E8 = false /\ elements (bits_of E8) (width Skx8) ex_vec /\
  match x86_shuffle2 Skx8 E8 ex_vec (fun l => 100 + Z.of_nat l)
          (fun l => if Nat.eqb l 2 then 77777 else 15 - Z.of_nat l) with
  | Done r => map r [0; 7]%nat = [Some 107; Some 100]
  | Fault => False
  end.
Proof.
  split; [reflexivity | split].
  - intros l H. unfold ex_vec. cbn [width bits_of] in *. lia.
  - vm_compute. reflexivity.
Qed.

(** The shuffles that read outside their own data are exactly those that go through memory, with
    an index outside the gang in some lane. *)
Theorem C17_x86_shuffle_fault : forall t e v perm,
  x86_shuffle t e v perm = Fault <->
  through_memory t e = true /\
  exists l, (l < width t)%nat /\ ~ (0 <= perm l < Z.of_nat (width t)).
Proof. exact shuffle_fault. Qed.

Theorem C17_x86_shuffle2_fault : forall t e a b perm,
  x86_shuffle2 t e a b perm = Fault <->
  through_memory2 t e = true /\
  exists l, (l < width t)%nat /\ ~ (0 <= perm l < 2 * Z.of_nat (width t)).
Proof. exact shuffle2_fault. Qed.

Example C17_x86_fault_used :
  x86_shuffle Icl32 E64 ex_vec (fun l => if Nat.eqb l 9 then 32 else 0) = Fault /\
  x86_shuffle Icl32 E64 ex_vec (fun l => if Nat.eqb l 9 then 31 else 0) <> Fault /\
  x86_shuffle2 Skx16 E64 ex_vec ex_vec (fun l => if Nat.eqb l 9 then 32 else 31) = Fault /\
  x86_shuffle2 Skx16 E64 ex_vec ex_vec (fun l => if Nat.eqb l 9 then 0 else 31) <> Fault.
Proof. repeat split; vm_compute; congruence. Qed.

(** [if (i < programCount) x = shuffle(v, i);] with 8-byte elements on the x32 AVX-512 targets, or
    4- or 8-byte elements on the x64 ones, reads outside of the program's data because of the index
    of a lane that is off: shuffle runs with all lanes and these targets load through a gather
    whose mask is all true.  Any single lane will do. *)
Theorem C17_x86_off_lane_refuted : forall t e v l0,
  through_memory t e = true -> (l0 < width t)%nat ->
  exists perm, int32s (width t) perm /\
    (forall l, (l < width t)%nat -> l <> l0 -> 0 <= perm l < Z.of_nat (width t)) /\
    x86_shuffle t e v perm = Fault.
Proof.
  intros t e v l0 M H. exists (fun l => if Nat.eqb l l0 then 2 ^ 30 else 0). split; [|split].
  - intros l _. destruct (Nat.eqb l l0); lia.
  - intros l Hl N. destruct (Nat.eqb_spec l l0); [contradiction | lia].
  - apply shuffle_fault. split; [exact M|]. exists l0. split; [exact H|].
    rewrite Nat.eqb_refl. destruct t; cbn; lia.
Qed.

Example C17_x86_off_lane_used : through_memory Skx64 E32 = true /\ (17 < width Skx64)%nat.
Proof. split; [reflexivity | cbn; lia]. Qed.

(** The same holds of [shuffle(a, b, i)] with indices that are not known at compile time, on every
    target and element size that uses the shared code: it stores the two vectors and loads one
    element per lane, for the lanes that are off too. *)
Theorem C17_x86_off_lane2_refuted : forall t e a b l0,
  through_memory2 t e = true -> (l0 < width t)%nat ->
  exists perm, int32s (width t) perm /\
    (forall l, (l < width t)%nat -> l <> l0 -> 0 <= perm l < 2 * Z.of_nat (width t)) /\
    x86_shuffle2 t e a b perm = Fault.
Proof.
  intros t e a b l0 M H. exists (fun l => if Nat.eqb l l0 then - 2 ^ 30 else 0). split; [|split].
  - intros l _. destruct (Nat.eqb l l0); lia.
  - intros l Hl N. destruct (Nat.eqb_spec l l0); [contradiction | lia].
  - apply shuffle2_fault. split; [exact M|]. exists l0. split; [exact H|].
    rewrite Nat.eqb_refl. lia.
Qed.

Example C17_x86_off_lane2_used : through_memory2 Avx2x8 E64 = true /\ (5 < width Avx2x8)%nat.
Proof. split; [reflexivity | cbn; lia]. Qed.

Print Assumptions C17_x86_shuffle_partial.
Print Assumptions C17_x86_shuffle_running.
Print Assumptions C17_x86_shuffle2_partial.
Print Assumptions C17_x86_shuffle2_running.
Print Assumptions C17_x86_shuffle_fault.
Print Assumptions C17_x86_shuffle2_fault.
Print Assumptions C17_x86_off_lane_refuted.
Print Assumptions C17_x86_off_lane2_refuted.
