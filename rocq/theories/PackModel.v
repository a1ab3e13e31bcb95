(** packed_store_active2 for 4- and 8-byte integers on the avx2-i32x8 target
    (builtins/target-avx2-i32x8.ll:630-696, 843-957): the running lanes are packed with bit deposit,
    bit extract, one permutation and one masked store per register.

    Memory is an array of 4-byte words, as in [LanesModel] ([memory]); words are bit patterns.  The
    vector of masks is given as one boolean per lane (icmp ne with 0).  The other element types of
    the target use the loop of builtins/util.m4 ([LanesModel.packed_store_active2]). *)
From Coq Require Import ZArith List Bool.
From Verif Require Import Bits LanesModel.
Import ListNotations.
Local Open Scope Z_scope.

(* llvm.x86.bmi.pdep.32: the low bits of x, in order, at the positions of the bits of mask. *)
Definition pdep (x mask : Z) : Z :=
  fst (fold_left (fun st i => let '(r, k) := st in
                    if Z.testbit mask (Z.of_nat i)
                    then (if Z.testbit x k then Z.lor r (Z.shiftl 1 (Z.of_nat i)) else r, k + 1)
                    else (r, k)) (seq 0 32) (0, 0)).

(* llvm.x86.bmi.pext.32: the bits of x at the positions of the bits of mask, next to each other. *)
Definition pext (x mask : Z) : Z :=
  fst (fold_left (fun st i => let '(r, k) := st in
                    if Z.testbit mask (Z.of_nat i)
                    then (if Z.testbit x (Z.of_nat i) then Z.lor r (Z.shiftl 1 k) else r, k + 1)
                    else (r, k)) (seq 0 32) (0, 0)).

(* llvm.ctpop.i32 *)
Definition ctpop32 (x : Z) : Z :=
  fold_left (fun n i => n + Z.b2z (Z.testbit x (Z.of_nat i))) (seq 0 32) 0.

Definition u32 (x : Z) : Z := x mod 2 ^ 32.

(* shl nsw i32 -1, n; xor with -1: the low n bits. *)
Definition low_ones (n : Z) : Z := Z.lxor (u32 (Z.shiftl (2 ^ 32 - 1) n)) (2 ^ 32 - 1).

(* Byte n of a number. *)
Definition byte (x n : Z) : Z := Z.shiftr x (8 * n) mod 256.

(* shufflevector <0, 16, 1, 17, 2, 18, 3, 19>: the bytes of two words in turn, as one i64. *)
Definition interleave (a b : Z) : Z :=
  fold_left (fun r k => Z.lor r (Z.lor (Z.shiftl (byte a k) (16 * k)) (Z.shiftl (byte b k) (16 * k + 8))))
    [0; 1; 2; 3] 0.

(* llvm.x86.avx2.maskstore.d.256: stores the words whose mask word has the sign bit set, touches
   nothing else. *)
Definition maskstore (sign : nat -> bool) (v : nat -> Z) (p : Z) (m : memory) : memory :=
  fun a => if (p <=? a) && (a <? p + 8) && sign (Z.to_nat (a - p)) then v (Z.to_nat (a - p)) else m a.

(* llvm.x86.avx2.permd: the low 3 bits of the index select the word. *)
Definition permd (v : nat -> Z) (idx : nat -> Z) : nat -> Z := fun l => v (Z.to_nat (idx l mod 8)).

(* The indices: lane l gets nibble l of the packed list of lanes.  and <i8 15 ...> on both halves of
   the interleaving, zext to i32. *)
Definition nibble (packed : Z) (l : nat) : Z :=
  let k := Z.of_nat (Nat.div2 l) in
  if Nat.even l then Z.land (byte packed k) 15 else Z.land (byte (Z.shiftr packed 4) k) 15.

(* target-avx2-i32x8.ll:660-682 %conv.i: sign of each word of the store mask.  The and with
   <-128, -121, ...> keeps bits 7, 2, 1, 0 of each byte but for the first, which keeps bit 7. *)
Definition store_sign32 (count : Z) (l : nat) : bool :=
  let spread := pdep (low_ones count) 286331153 in
  let bytes := (Z.shiftl (interleave spread (Z.shiftr spread 4)) 7) mod 2 ^ 64 in
  let kept := Z.land (byte bytes (Z.of_nat l)) (if Nat.eqb l 0 then 128 else 135) in
  Z.testbit kept 7.

(* target-avx2-i32x8.ll:683-693 %conv.i41: the lanes to take. *)
Definition take32 (mask : Z) : nat -> Z :=
  nibble (pext 1985229328 (u32 (pdep mask 286331153 * 15))).

(* target-avx2-i32x8.ll:660-696 *)
Definition packed_store_active2_i32 (mask : gang bool) (v : gang Z) (p : Z) (m : memory) : memory * Z :=
  let bits := movmsk 8 mask in
  let count := ctpop32 bits in
  (maskstore (store_sign32 count) (permd v (take32 bits)) p m, count).

(* target-avx2-i32x8.ll:904-906, 934-936 %conv.i: one byte per 8-byte element, sext to i64: both words of
   an element have the sign of its byte. *)
Definition store_sign64 (count : Z) (l : nat) : bool :=
  Z.testbit (pdep (low_ones count) 2155905152) (8 * Z.of_nat (Nat.div2 l) + 7).

(* target-avx2-i32x8.ll:900-919: the words to take from a register of four 8-byte elements. *)
Definition take64 (spread : Z) : nat -> Z := nibble (pext 1985229328 (u32 (spread * 255))).

(* target-avx2-i32x8.ll:894-957; word 2 * l + h of [v] is half h of lane l. *)
Definition packed_store_active2_i64 (mask : gang bool) (v : nat -> Z) (p : Z) (m : memory) : memory * Z :=
  let bits := movmsk 8 mask in
  let spread1 := pdep bits 16843009 in
  let count1 := ctpop32 spread1 in
  let m1 := maskstore (store_sign64 count1) (permd v (take64 spread1)) p m in
  let spread2 := pdep (Z.shiftr bits 4) 16843009 in
  let count2 := ctpop32 spread2 in
  let high := fun w => v (8 + w)%nat in
  (maskstore (store_sign64 count2) (permd high (take64 spread2)) (p + 2 * count1) m1,
   count2 + count1).
