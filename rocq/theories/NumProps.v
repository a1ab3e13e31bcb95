(** Property theorems: memory copies (C24), division under a mask (C25), bit counting (C30). *)
From Coq Require Import ZArith List Bool Lia.
From Verif Require Import Bits LanesModel LanesSpec ForeachModel ForeachProofs4 AtomicsModel NumModel NumSpec
  NumProofs NumProofs2.
Import ListNotations.
Local Open Scope Z_scope.

(** ** C24: memcpy, memmove, memset.  "For every [fuel] from some [N] on" is termination. *)

(* memmove is right for every overlap; counts of zero and below copy nothing *)
Theorem C24_memmove :
  forall (n : Z) (m : Z -> Z) (dst src count : Z),
  n = 32 \/ n = 64 ->
  - 2 ^ (n - 1) < count < 2 ^ (n - 1) -> block dst count -> block src count ->
  exists N m', (forall fuel, (N <= fuel)%nat -> memmove n fuel dst src count m = Some m') /\
    is_move m dst src count m'.
Proof.
  intros n m d s c Hn Hc Bd Bs. apply memmove_test_move; auto. lia.
Qed.
Print Assumptions C24_memmove.

(* memcpy: the blocks must not overlap, except that the destination may start first *)
Theorem C24_memcpy :
  forall (m : Z -> Z) (dst src count : Z), block dst count -> block src count ->
  dst <= src \/ disjoint dst count src count ->
  exists N m', (forall fuel, (N <= fuel)%nat -> memcpy fuel dst src count m = Some m') /\
    is_move m dst src count m'.
Proof. intros. now apply memcpy_move. Qed.
Print Assumptions C24_memcpy.

Theorem C24_memset :
  forall (m : Z -> Z) (dst val count : Z), block dst count ->
  exists N m', (forall fuel, (N <= fuel)%nat -> memset fuel dst val count m = Some m') /\
    is_fill m dst val count m'.
Proof. intros. now apply memset_fill. Qed.
Print Assumptions C24_memset.

(* The versions with varying arguments do the running lanes' moves one after the other, in lane
   order. *)
Theorem C24_memmove_varying :
  forall (n : Z) (W : nat) (mask : nat -> bool) (m : Z -> Z) (dst src count : nat -> Z),
  n = 32 \/ n = 64 -> (W <= 64)%nat -> running W mask <> [] ->
  (forall l, In l (running W mask) ->
     block (dst l) (count l) /\ block (src l) (count l) /\ - 2 ^ (n - 1) < count l < 2 ^ (n - 1)) ->
  exists N m', (forall fuel, (N <= fuel)%nat -> memmove_varying n W mask fuel dst src count m = Some m') /\
    in_turn (fun l m m' => is_move m (dst l) (src l) (count l) m') (running W mask) m m'.
Proof.
  intros n W mask m d s c Hn HW Hne H. apply memmove_varying_moves; auto; try lia; intros l Hl; apply H; exact Hl.
Qed.
Print Assumptions C24_memmove_varying.

Theorem C24_memcpy_varying :
  forall (W : nat) (mask : nat -> bool) (m : Z -> Z) (dst src count : nat -> Z),
  (W <= 64)%nat -> running W mask <> [] ->
  (forall l, In l (running W mask) ->
     block (dst l) (count l) /\ block (src l) (count l) /\ disjoint (dst l) (count l) (src l) (count l)) ->
  exists N m', (forall fuel, (N <= fuel)%nat -> memcpy_varying W mask fuel dst src count m = Some m') /\
    in_turn (fun l m m' => is_move m (dst l) (src l) (count l) m') (running W mask) m m'.
Proof.
  intros W mask m d s c HW Hne H. apply memcpy_varying_moves; auto; intros l Hl; try (apply H; exact Hl).
  right. apply H. exact Hl.
Qed.
Print Assumptions C24_memcpy_varying.

Theorem C24_memset_varying :
  forall (W : nat) (mask : nat -> bool) (m : Z -> Z) (dst val count : nat -> Z),
  (W <= 64)%nat -> running W mask <> [] ->
  (forall l, In l (running W mask) -> block (dst l) (count l)) ->
  exists N m', (forall fuel, (N <= fuel)%nat -> memset_varying W mask fuel dst val count m = Some m') /\
    in_turn (fun l m m' => is_fill m (dst l) (val l) (count l) m') (running W mask) m m'.
Proof. intros. now apply memset_varying_fills. Qed.
Print Assumptions C24_memset_varying.

(* If no lane writes where another reads or writes, each lane gets the bytes its source held before
   the call and nothing else changes. *)
Theorem C24_separate_lanes :
  forall (n : Z) (W : nat) (mask : nat -> bool) (m : Z -> Z) (dst src count : nat -> Z),
  n = 32 \/ n = 64 -> (W <= 64)%nat -> running W mask <> [] ->
  (forall l, In l (running W mask) ->
     block (dst l) (count l) /\ block (src l) (count l) /\ - 2 ^ (n - 1) < count l < 2 ^ (n - 1)) ->
  (forall l k, In l (running W mask) -> In k (running W mask) -> l <> k ->
     disjoint (dst l) (count l) (dst k) (count k) /\ disjoint (dst l) (count l) (src k) (count k)) ->
  exists N m', (forall fuel, (N <= fuel)%nat -> memmove_varying n W mask fuel dst src count m = Some m') /\
    (forall l k, In l (running W mask) -> 0 <= k < count l -> m' (dst l + k) = m (src l + k)) /\
    (forall a, (forall l, In l (running W mask) -> ~ (dst l <= a < dst l + count l)) -> m' a = m a).
Proof.
  intros n W mask m d s c Hn HW Hne H Hd.
  destruct (C24_memmove_varying n W mask m d s c Hn HW Hne H) as (N & m' & E & T).
  exists N, m'. split; [exact E|]. eapply in_turn_separate; eauto.
  apply NoDup_filter, seq_NoDup.
Qed.
Print Assumptions C24_separate_lanes.

(* overlapping in both directions, and wrapping below the source *)
Example C24_ex :
  let m := fun a => a in
  (exists m', memmove 32 10 101 100 5 m = Some m' /\ map m' [100; 101; 102; 105; 106] = [100; 100; 101; 104; 106]) /\
  (exists m', memmove 64 10 100 101 5 m = Some m' /\ map m' [100; 104; 105] = [101; 105; 105]) /\
  (block 101 5 /\ block 100 5) /\
  (exists m', memcpy_varying 4 (fun l => negb (Nat.eqb l 1)) 9 (fun l => 10 * Z.of_nat l) (fun _ => 100) (fun l => Z.of_nat l) m
              = Some m' /\ map m' [0; 10; 20; 21; 22; 30; 31; 32] = [0; 10; 100; 101; 22; 100; 101; 102]).
Proof.
  cbv zeta. split; [eexists; split; [reflexivity|reflexivity]|].
  split; [eexists; split; [reflexivity|reflexivity]|].
  split; [unfold block; lia|]. eexists. split; [vm_compute; reflexivity|reflexivity].
Qed.

(** ** C25: integer division and remainder on varying values *)

(* the result of x / y or x % y *)
Definition division_result (op : divop) (x y r : Z) : Prop :=
  match op with
  | SDiv | UDiv => exists k, is_cdiv x y r k
  | SRem | URem => exists k, is_cdiv x y k r
  end.

Lemma quotient_result op x y : y <> 0 -> division_result op x y (quotient op x y).
Proof. intros H. pose proof (quot_cdiv x y H). destruct op; cbn; eauto. Qed.

(* Nothing is assumed about the lanes that are off: they may hold a zero divisor. *)
Theorem C25_masked_division :
  forall (n : Z) (op : divop) (W : nat) (mask : nat -> bool) (a b : nat -> Z),
  (W <= 64)%nat -> running W mask <> [] ->
  (forall l, In l (running W mask) -> div_defined (is_signed_div op) n (a l) (b l)) ->
  exists N r, (forall fuel, (N <= fuel)%nat -> varying_division false n op W mask fuel a (Value b) = Some r) /\
    forall l, In l (running W mask) -> division_result op (a l) (b l) (r l).
Proof.
  intros n op W mask a b HW Hne HD. destruct (varying_division_some n op W mask a b HW Hne HD) as (N & r & E & V).
  exists N, r. split; [exact E|]. intros l Hl. rewrite V by exact Hl. apply quotient_result. apply HD. exact Hl.
Qed.
Print Assumptions C25_masked_division.

(* A constant divisor other than 0 and, for signed types, -1 is safe for all lanes, on or off. *)
Theorem C25_constant_divisor :
  forall (xe : bool) (n : Z) (op : divop) (W : nat) (mask : nat -> bool) (a : nat -> Z) (c : Z),
  c <> 0 -> (is_signed_div op = true -> c <> -1) ->
  exists r, (forall fuel, varying_division xe n op W mask fuel a (Splat c) = Some r) /\
    forall l, (l < W)%nat -> division_result op (a l) c (r l).
Proof.
  intros xe n op W mask a c H0 H1. destruct (div_vector_some n op W a (fun _ => c)) as (r & E & V).
  - intros l Hl. split; [exact H0|]. intros (S & _ & X). now apply H1.
  - exists r. split; [intros; exact E|]. intros l Hl. rewrite V by exact Hl. now apply quotient_result.
Qed.
Print Assumptions C25_constant_divisor.

(* The full claim fails for the constant -1: lanes that are off and hold INT_MIN are divided too. *)
Theorem C25_constant_minus_one_refuted :
  exists (W : nat) (mask : nat -> bool) (a : nat -> Z),
    (W <= 64)%nat /\ running W mask <> [] /\
    (forall l, In l (running W mask) -> div_defined true 32 (a l) (-1)) /\
    forall fuel, varying_division false 32 SDiv W mask fuel a (Splat (-1)) = None.
Proof.
  exists 4%nat, (fun l => Nat.eqb l 0), (fun l => if Nat.eqb l 0 then 7 else - 2 ^ 31).
  split; [lia|]. split; [discriminate|]. split; [|intros; vm_compute; reflexivity].
  intros l Hl. apply running_In in Hl as [_ Hl]. rewrite Hl. unfold div_defined. split; [discriminate|].
  intros (_ & X & _). discriminate X.
Qed.
Print Assumptions C25_constant_minus_one_refuted.

(* It fails too when no lane is on: the loop over the active lanes is then undefined.  This code is
   reachable with no lane on, because x /= b and x %= b count as safe to run with all lanes off
   (see C14). *)
Theorem C25_all_lanes_off_refuted :
  forall (n : Z) (op : divop) (W : nat) (mask : nat -> bool) (a b : nat -> Z) (fuel : nat),
  (0 < W <= 64)%nat -> running W mask = [] ->
  varying_division false n op W mask fuel a (Value b) = None.
Proof.
  intros n op W mask a b fuel HW E. cbn [varying_division]. unfold vector_int_division.
  destruct (b_all W mask) eqn:B.
  - rewrite LanesProofs.b_all_spec in B by lia. rewrite forallb_forall in B.
    assert (In O (running W mask)) as X.
    { apply running_In. split; [lia|]. apply B. apply in_seq. lia. }
    rewrite E in X. destruct X.
  - apply idiv_builtin_all_off; [lia|exact E].
Qed.
Print Assumptions C25_all_lanes_off_refuted.

(* lanes 1 and 3 are off with a zero divisor and INT_MIN / -1 *)
Example C25_ex :
  let mask := fun l => Nat.even l in
  let a := fun l => nth l [-7; 5; 9; - 2 ^ 31] 0 in
  let b := fun l => nth l [2; 0; -4; -1] 0 in
  running 4 mask = [0; 2]%nat /\
  (forall l, In l (running 4 mask) -> div_defined true 32 (a l) (b l)) /\
  match varying_division false 32 SDiv 4 mask 5 a (Value b), varying_division false 32 SRem 4 mask 5 a (Value b) with
  | Some q, Some r => q 0%nat = -3 /\ r 0%nat = -1 /\ q 2%nat = -2 /\ r 2%nat = 1
  | _, _ => False
  end.
Proof.
  split; [reflexivity|]. split.
  - intros l [<-|[<-|[]]]; split; try discriminate; intros (_ & X & _); discriminate X.
  - vm_compute. auto.
Qed.

(** ** C30: bit counting.  The value [x] of an n-bit type has the bits Z.testbit x i, i < n, whether
    it is read as signed or as unsigned. *)

Theorem C30_leading_zeros_uniform :
  forall (n : nat) (x : Z), is_clz (Z.of_nat n) x (ctlz n x).
Proof. intros. apply ctlz_from_spec. Qed.
Print Assumptions C30_leading_zeros_uniform.

Theorem C30_leading_zeros_varying :
  forall (n W : nat) (mask : nat -> bool) (v : nat -> Z),
  exists r, clz_varying n W mask v = Some r /\
    forall l, In l (running W mask) -> exists c, r l = Some c /\ is_clz (Z.of_nat n) (v l) c.
Proof. exact clz_varying_spec. Qed.
Print Assumptions C30_leading_zeros_varying.

Theorem C30_leading_zeros_vector :
  forall (n : nat) (v : nat -> Z) (l : nat), n = 32%nat \/ n = 64%nat -> is_clz (Z.of_nat n) (v l) (clz_vector n v l).
Proof. intros n v l H. apply clz_vector_spec. lia. Qed.
Print Assumptions C30_leading_zeros_vector.

Theorem C30_trailing_zeros :
  forall (n : nat) (v : nat -> Z) (l : nat),
  is_ctz (Z.of_nat n) (v l) (cttz n (v l)) /\ is_ctz (Z.of_nat n) (v l) (ctz_vector n v l).
Proof. intros. split; apply cttz_spec. Qed.
Print Assumptions C30_trailing_zeros.

(* popcnt of an integer: each running lane gets its own count *)
Theorem C30_popcnt_varying :
  forall (n W : nat) (mask : nat -> bool) (v : nat -> Z), n = 32%nat \/ n = 64%nat ->
  exists r, popcnt_varying n W mask v = Some r /\
    forall l, In l (running W mask) -> r l = Some (bit_count n (v l)).
Proof.
  intros n W mask v H. destruct (popcnt_varying_spec n W mask v) as (r & E & A & _); [lia|]. eauto.
Qed.
Print Assumptions C30_popcnt_varying.

(* popcnt of a bool: the number of running lanes where it is true *)
Theorem C30_popcnt_bool :
  forall (W : nat) (mask v : nat -> bool), (W <= 64)%nat ->
  popcnt_bool W mask v = Z.of_nat (length (filter (fun l => mask l && v l) (seq 0 W))).
Proof. exact popcnt_bool_spec. Qed.
Print Assumptions C30_popcnt_bool.

Example C30_ex :
  ctlz 32 0 = 32 /\ ctlz 32 (-1) = 0 /\ ctlz 64 (2 ^ 40) = 23 /\ cttz 32 (- 2 ^ 31) = 31 /\ cttz 64 0 = 64 /\
  ctpop 32 (-2) = 31 /\ popcnt_bool 8 (fun l => Nat.even l) (fun l => Nat.ltb 2 l) = 2 /\
  (exists r, clz_varying 32 4 (fun l => Nat.odd l) (fun l => Z.of_nat l) = Some r /\ r 3%nat = Some 30 /\ r 2%nat = None).
Proof.
  repeat match goal with |- _ /\ _ => split end; try reflexivity.
  eexists. split; [reflexivity|]. split; reflexivity.
Qed.
