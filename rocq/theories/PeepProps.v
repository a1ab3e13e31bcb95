(** Property C76: replacing averages and constant shifts by instructions of the target. *)
From Coq Require Import ZArith List Bool Lia.
From Verif Require Import Bits SatModel LanesModel PeepModel PeepSpec PeepProofs PeepProofs2 PeepProofs3.
Import ListNotations.
Local Open Scope Z_scope.

(** Code on any target keeps the value of every lane when averages are replaced, if it contains no
    division by 3 (missing for the full property: see the refutation below). *)
Theorem C76_averages_partial T e : typed T e -> no_thirds e -> keeps T e (peephole T e).
Proof. intros Ht N. now apply peephole_ok. Qed.

(** Where the target has no instruction for averages nothing is changed. *)
Theorem C76_no_instruction_no_change T e : kind T <> Pavg -> peephole T e = e.
Proof. apply peephole_none. Qed.

(** Where it has them, an unsigned average that rounds up becomes one instruction, in whichever order it is written. *)
Theorem C76_averages_recognized T n f a b s h : kind T = Pavg -> (n = 8 /\ f = AvgUpU8 \/ n = 16 /\ f = AvgUpU16) -> (0 < width T)%nat ->
  ty_of T a = Vec (width T) n -> ty_of T b = Vec (width T) n ->
  let x := Cast ZExt (Vec (width T) (2 * n)) a in let y := Cast ZExt (Vec (width T) (2 * n)) b in
  let k c := Cst (Vec (width T) (2 * n)) (repeat c (width T)) in
  In s [Bin Add (Bin Add x y) (k 1); Bin Add (Bin Add x (k 1)) y; Bin Add x (Bin Add y (k 1))] ->
  In h [Bin UDiv s (k 2); Bin LShr s (k 1)] ->
  peephole T (Cast Trunc (Vec (width T) n) h) = Avg f (peephole T a) (peephole T b).
Proof. exact (recognized T n f a b s h). Qed.

(** The targets sse4-i8x16 and sse4-i16x8, and code on bytes for the first. *)
Definition sse4_i8x16 : target := {| width := 16; kind := Pavg; via_shuffle := fun _ => true |}.
Definition sse4_i16x8 : target := {| width := 8; kind := Pavg; via_shuffle := fun _ => true |}.
Definition byte (i : nat) : expr := Val (Vec 16 8) i.
Definition word (e : expr) : expr := Cast ZExt (Vec 16 16) e.
Definition all16 (c : Z) : expr := Cst (Vec 16 16) (repeat c 16).
Definition to_byte (e : expr) : expr := Cast Trunc (Vec 16 8) e.

(** The pattern tests that the divisor fits in two bits, so (a + b + 1) / 3 is taken for the average:
    for a = 100 and b = 200 the program computes 100 and the optimized program 150. *)
Theorem C76_divide_by_three_refuted :
  exists e rho amt, typed sse4_i8x16 e /\ lane sse4_i8x16 rho amt e 0 = Some 100 /\
    lane sse4_i8x16 rho amt (peephole sse4_i8x16 e) 0 = Some 150.
Proof.
  exists (to_byte (Bin UDiv (Bin Add (Bin Add (word (byte 0)) (word (byte 1))) (all16 1)) (all16 3))),
    (fun i _ => if Nat.eqb i 0 then 100 else 200), (fun _ => 0).
  split; [|split; reflexivity]. cbn. repeat split; auto; try lia;
    repeat (apply Forall_cons; [unfold in_u; lia|]); apply Forall_nil.
Qed.

(** shift() by a constant number of lanes keeps the value of every lane that had one, on every target and
    for every number of lanes that does not take the compiler's arithmetic beyond an int. *)
Theorem C76_shift_constant_partial T e : (width T <= 64)%nat -> typed T e -> no_overflow T e ->
  exists e', shifts T e = Some e' /\ keeps T e e'.
Proof. intros HW Ht N. destruct (shifts_ok T e HW Ht N) as [e' [H1 [_ [_ H2]]]]. eauto. Qed.

(** ... and gives every lane the value documented for shift(): that of the lane [n] further, or zero
    outside the gang, also where the implementation in memory reads outside its temporary. *)
Theorem C76_shift_constant_value T s t i n e' rho amt l : (width T <= 64)%nat -> lns t = width T -> 0 < bits t ->
  In s [I8; I16; I32; I64; F32; F64] -> - 2 ^ 31 <= n -> n + Z.of_nat (width T) <= 2 ^ 31 ->
  shifts T (Shift s (Val t i) n) = Some e' -> (l < width T)%nat ->
  lane T rho amt e' l =
    Some (if (0 <=? Z.of_nat l + n) && (Z.of_nat l + n <? Z.of_nat (width T))
          then rho i (Z.to_nat (Z.of_nat l + n)) mod 2 ^ bits t else 0).
Proof.
  intros HW Hl Hb Hs H1 H2. cbn [shifts].
  assert (R : replaced s = true) by (repeat (destruct Hs as [<-|Hs]; [reflexivity|]); destruct Hs). rewrite R.
  destruct (shuffle_vals_ok (width T) n) as [idx [-> [L H]]]; [lia|lia|]. intros [= <-] Hi.
  cbn [lane]. cbv zeta. rewrite (H l Hi).
  destruct ((0 <=? Z.of_nat l + n) && (Z.of_nat l + n <? Z.of_nat (width T))) eqn:B; [now rewrite B|].
  destruct (Z.ltb_spec (Z.of_nat (width T)) (Z.of_nat (width T))); [lia|]. rewrite andb_false_r.
  rewrite (proj2 (Z.leb_le _ _) (Z.le_refl _)).
  destruct (Z.ltb_spec (Z.of_nat (width T)) (2 * Z.of_nat (width T))); [reflexivity|lia].
Qed.

(** For shift(v, 2147483647), where every lane must be zero, the compiler's own addition of the lane number
    overflows. *)
Theorem C76_shift_constant_overflow_refuted :
  exists T e, typed T e /\ (forall rho amt l, (l < width T)%nat -> lane T rho amt e l = Some 0) /\
    shifts T e = None.
Proof.
  exists {| width := 4; kind := M4; via_shuffle := fun _ => true |}, (Shift I32 (Val (Vec 4 32) 0) (2 ^ 31 - 1)).
  split; [cbn; lia|]. split; [|reflexivity].
  intros rho amt l Hl. cbn [width] in Hl. destruct l as [|[|[|[|l]]]]; try lia; reflexivity.
Qed.

(** Concrete cases: the three orders of an average of bytes are recognized, the average of 100 and 201 is
    151, its hypotheses are met, and a shift by two lanes becomes a shuffle. *)
Example C76_ex :
  let half x := to_byte (Bin UDiv x (all16 2)) in
  let a := word (byte 0) in let b := word (byte 1) in
  let e := half (Bin Add (Bin Add a b) (all16 1)) in
  typed sse4_i8x16 e /\ no_thirds e /\
  peephole sse4_i8x16 e = Avg AvgUpU8 (byte 0) (byte 1) /\
  peephole sse4_i8x16 (half (Bin Add a (Bin Add b (all16 1)))) = Avg AvgUpU8 (byte 0) (byte 1) /\
  peephole sse4_i8x16 (half (Bin Add (Bin Add a (all16 1)) b)) = Avg AvgUpU8 (byte 0) (byte 1) /\
  peephole sse4_i8x16 (to_byte (Bin LShr (Bin Add (Bin Add a b) (all16 1)) (all16 1))) = Avg AvgUpU8 (byte 0) (byte 1) /\
  lane sse4_i8x16 (fun i _ => if Nat.eqb i 0 then 100 else 201) (fun _ => 0) e 3 = Some 151 /\
  shifts sse4_i16x8 (Shift I32 (Val (Vec 8 32) 0) 2) = Some (Shuffle (Val (Vec 8 32) 0) [2; 3; 4; 5; 6; 7; 8; 8]).
Proof.
  cbv zeta. split; [|split].
  - cbn. repeat split; auto; try lia; repeat (apply Forall_cons; [unfold in_u; lia|]); apply Forall_nil.
  - assert (A : forall c d, c <> d -> ~ all_lanes d (all16 c)).
    { intros c d Hd [t [l [E [_ F]]]]. injection E as _ <-. inversion F. congruence. }
    assert (B : forall d t e, ~ all_lanes d (Cast ZExt t e)).
    { intros d t e [t' [l [E _]]]. discriminate. }
    assert (C : forall d a b, ~ all_lanes d (Bin Add a b)).
    { intros d a b [t' [l [E _]]]. discriminate. }
    intros x y. split; cbn [parts to_byte word byte all16 app In]; intros H;
      repeat (destruct H as [H|H]; [try discriminate|]); try contradiction; injection H as <- <-;
      split; (apply B || apply C || (apply (A 2); lia) || (apply (A 1); lia)).
  - repeat split.
Qed.

Print Assumptions C76_averages_partial.
Print Assumptions C76_no_instruction_no_change.
Print Assumptions C76_averages_recognized.
Print Assumptions C76_divide_by_three_refuted.
Print Assumptions C76_shift_constant_partial.
Print Assumptions C76_shift_constant_value.
Print Assumptions C76_shift_constant_overflow_refuted.
