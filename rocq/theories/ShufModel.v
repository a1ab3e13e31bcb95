(** The shuffles of the x86 targets with vector permutation instructions: builtins/target-avx1-i64x4.ll,
    target-avx2-i32x4/x8/x16.ll, target-avx512skx-x4/x8/x16/x32/x64.ll and
    target-avx512icl-x16/x32/x64.ll.

    A vector of [W] elements is a function from lane to bit pattern; float, double and half
    are shuffled as integers of the same size (the functions for them are the same instructions on
    the floating-point registers, or bitcasts around the integer ones).  Only the functions with
    indices that are not compile-time constants are modelled: the constant case is extractelement
    ([LanesModel.shuffle2]).  An element of a register is [None] when it is LLVM poison.
    The whole operation is [Fault] when it reads memory outside the temporary it allocated. *)
From Coq Require Import ZArith List Bool Lia.
From Verif Require Import LanesModel.
Import ListNotations.
Local Open Scope Z_scope.

Inductive outcome (A : Type) : Type := Done (r : A) | Fault.
Arguments Done {A} r.
Arguments Fault {A}.

(* A register: lanes with possibly undefined contents. *)
Definition reg : Type := gang (option Z).

(* Reads lane [j] of a register, [j] not negative. *)
Definition lane (v : reg) (j : Z) : option Z := v (Z.to_nat j).

(* builtins/util.m4 convert4to8, convert4to16, convert8to16 (shufflevector with poison): lanes past
   the vector are undefined. *)
Definition widen (W : nat) (v : gang Z) : reg :=
  fun l => if Nat.ltb l W then Some (v l) else None.

(* shufflevector of two vectors of W elements into one of 2 * W. *)
Definition concat2 (W : nat) (a b : gang Z) : reg :=
  fun l => if Nat.ltb l W then Some (a l)
           else if Nat.ltb l (2 * W) then Some (b (l - W)%nat) else None.

(* trunc <n x i32> to <n x ibits>, or zext for bits = 64: the index as an unsigned number of
   min(bits, 32) bits. *)
Definition trunc (bits : Z) (i : Z) : Z := i mod 2 ^ (Z.min bits 32).

(* vpermb/vpermw/vpermd/vpermq/vpermilps (llvm.x86.avx512.mask.permvar, avx2.permd, avx.vpermilvar.ps):
   the low log2(n) bits of the index select the element. *)
Definition permvar (n : Z) (v : reg) (idx : gang Z) : reg := fun l => lane v (idx l mod n).

(* vpermi2 (llvm.x86.avx512.vpermi2var): the low log2(n) bits of the index select the element, the
   bit above selects the table. *)
Definition permi2 (n : Z) (a : reg) (idx : gang Z) (b : reg) : reg :=
  fun l => if (idx l / n) mod 2 =? 0 then lane a (idx l mod n) else lane b (idx l mod n).

(* pshufb (llvm.x86.ssse3.pshuf.b.128): zero when bit 7 of the index is set, else the low 4 bits
   select the element. *)
Definition pshufb (v : reg) (idx : gang Z) : reg :=
  fun l => if 128 <=? idx l mod 256 then Some 0 else lane v (idx l mod 16).

(* shufflevector taking the upper half of a vector of 2 * n elements. *)
Definition upper {A} (n : nat) (v : gang A) : gang A := fun l => v (n + l)%nat.

(* shufflevector joining two vectors of n elements (assemble_8s and the like). *)
Definition join {A} (n : nat) (a b : gang A) : gang A :=
  fun l => if Nat.ltb l n then a l else b (l - n)%nat.

(** ** One vector *)

(* How a target shuffles one vector. *)
Inductive impl : Type :=
| IExtract                       (* shuffle1: extractelement per lane *)
| IPermvar (bits n : Z)          (* one permutation of n elements, indices truncated to bits *)
| IHalves (bits : Z) (n : nat)   (* two vpermi2 with tables of n elements *)
| IPshufb
| ITwoPermd                      (* avx2-i32x16 *)
| IGather                        (* store to a temporary, gather with an all-true mask *)
| IVia16 (i : impl).             (* zext to i16, shuffle, trunc *)

(* target-avx512skx-x8.ll:59-90, -x16.ll:56-87, -x32.ll:81-109, -x64.ll:58-71. *)
Definition halves (bits : Z) (n : nat) (v : reg) (perm : gang Z) : reg :=
  let low := v in
  let high := upper n v in
  let idx := fun l => trunc bits (perm l) in
  join n (permi2 (Z.of_nat n) low idx high) (permi2 (Z.of_nat n) low (upper n idx) high).

(* target-avx2-i32x16.ll:83-100: icmp slt on the signed index selects the half. *)
Definition two_permd (v : reg) (perm : gang Z) : reg :=
  let v1 := v in
  let v2 := upper 8 v in
  let i1 := perm in
  let i2 := upper 8 perm in
  join 8 (fun l => if i1 l <? 8 then permvar 8 v1 i1 l else permvar 8 v2 i1 l)
         (fun l => if i2 l <? 8 then permvar 8 v1 i2 l else permvar 8 v2 i2 l).

(* target-avx512skx-x32.ll:111-133, -x64.ll:88-110,120-143: the vector is stored in an alloca, the
   pointers are base + sext(index) * size, llvm.masked.gather with all lanes on.  A pointer outside
   of the alloca makes the operation read memory that is not its own. *)
Definition gather_stack (n W : nat) (v : gang Z) (perm : gang Z) : outcome reg :=
  if forallb (fun l => (0 <=? perm l) && (perm l <? Z.of_nat n)) (lanes W)
  then Done (fun l => Some (v (Z.to_nat (perm l))))
  else Fault.

Fixpoint run1 (W : nat) (i : impl) (v : gang Z) (perm : gang Z) : outcome reg :=
  match i with
  | IExtract => Done (fun l => extract W v (perm l))
  | IPermvar bits n => Done (permvar n (widen W v) (fun l => trunc bits (perm l)))
  | IHalves bits n => Done (halves bits n (widen W v) perm)
  | IPshufb => Done (pshufb (widen W v) (fun l => trunc 8 (perm l)))
  | ITwoPermd => Done (two_permd (widen W v) perm)
  | IGather => gather_stack W W v perm
  | IVia16 j =>
      match run1 W j (fun l => v l mod 2 ^ 16) perm with
      | Done r => Done (fun l => option_map (fun x => x mod 2 ^ 8) (r l))
      | Fault => Fault
      end
  end.

(** ** Two vectors *)

Inductive impl2 : Type :=
| I2Stack                        (* macro shuffle2: store both, load per lane *)
| I2Permvar (bits n : Z)         (* one permutation of the two vectors joined *)
| I2Permi2 (bits : Z)            (* one vpermi2 *)
| I2Pshufb                       (* one pshufb of the two vectors joined *)
| I2TwoShuffles (i : impl)       (* shuffle each vector, select *)
| I2Via16 (j : impl2).

(* 32-bit wrap-around of a signed number: sub <W x i32>. *)
Definition wrap32 (x : Z) : Z := (x + 2 ^ 31) mod 2 ^ 32 - 2 ^ 31.

Fixpoint run2 (W : nat) (i : impl2) (a b : gang Z) (perm : gang Z) : outcome reg :=
  match i with
  (* builtins/util.m4:2235-2257: one load per lane from an alloca of 2 * W elements *)
  | I2Stack => gather_stack (2 * W) W (fun l => if Nat.ltb l W then a l else b (l - W)%nat) perm
  (* target-avx512skx-x4.ll:107-122 *)
  | I2Permvar bits n => Done (permvar n (concat2 W a b) (fun l => trunc bits (perm l)))
  (* target-avx512skx-x4.ll:133-190, -x8.ll:120-170, -x16.ll:95-136, -x32.ll:145-157, icl *)
  | I2Permi2 bits =>
      Done (permi2 (Z.of_nat W) (widen W a) (fun l => trunc bits (perm l)) (widen W b))
  (* target-avx512skx-x4.ll:82-105, -x8.ll:94-114 *)
  | I2Pshufb => Done (pshufb (concat2 W a b) (fun l => trunc 8 (perm l)))
  (* target-avx2-i32x16.ll:128-143 and the same in -i32x8, -i32x4, avx1-i64x4 *)
  | I2TwoShuffles j =>
      match run1 W j a perm, run1 W j b (fun l => wrap32 (perm l - Z.of_nat W)) with
      | Done r1, Done r2 => Done (fun l => if perm l <? Z.of_nat W then r1 l else r2 l)
      | _, _ => Fault
      end
  (* target-avx512skx-x16.ll:146-152, -x32.ll:167-173 *)
  | I2Via16 j =>
      match run2 W j (fun l => a l mod 2 ^ 16) (fun l => b l mod 2 ^ 16) perm with
      | Done r => Done (fun l => option_map (fun x => x mod 2 ^ 8) (r l))
      | Fault => Fault
      end
  end.

(** ** The targets *)

Inductive target : Type :=
| Avx1x4 | Avx2x4 | Avx2x8 | Avx2x16 | Skx4 | Skx8 | Skx16 | Skx32 | Skx64 | Icl16 | Icl32 | Icl64.

(* Size of an element: int8; int16 and float16; int32 and float; int64 and double. *)
Inductive elt : Type := E8 | E16 | E32 | E64.

Definition bits_of (e : elt) : Z := match e with E8 => 8 | E16 => 16 | E32 => 32 | E64 => 64 end.

(* The WIDTH of each target. *)
Definition width (t : target) : nat :=
  match t with
  | Avx1x4 | Avx2x4 | Skx4 => 4
  | Avx2x8 | Skx8 => 8
  | Avx2x16 | Skx16 | Icl16 => 16
  | Skx32 | Icl32 => 32
  | Skx64 | Icl64 => 64
  end%nat.

(* Which function each target file defines for __shuffle_<type>: the icl files define the int8 ones
   and take the others from skx. *)
Definition shuffle_impl (t : target) (e : elt) : impl :=
  match t, e with
  (* target-avx1-i64x4.ll:21-38, target-avx2-i32x4.ll:27-44 *)
  | (Avx1x4 | Avx2x4), E32 => IPermvar 32 4
  (* target-avx2-i32x8.ll:30-46 *)
  | Avx2x8, E32 => IPermvar 32 8
  (* target-avx2-i32x16.ll:76-118 *)
  | Avx2x16, E32 => ITwoPermd
  | (Avx1x4 | Avx2x4 | Avx2x8 | Avx2x16), _ => IExtract
  (* target-avx512skx-x4.ll:15-78 *)
  | Skx4, E8 => IPshufb
  | Skx4, E16 => IPermvar 16 8
  | Skx4, E32 => IPermvar 32 4
  | Skx4, E64 => IPermvar 64 4
  (* target-avx512skx-x8.ll:16-90 *)
  | Skx8, E8 => IPshufb
  | Skx8, E16 => IPermvar 16 8
  | Skx8, E32 => IPermvar 32 8
  | Skx8, E64 => IHalves 64 4
  (* target-avx512skx-x16.ll:22-87, target-avx512icl-x16.ll:19-24 *)
  | Skx16, E8 => IPshufb
  | Icl16, E8 => IPermvar 8 16
  | (Skx16 | Icl16), E16 => IPermvar 16 16
  | (Skx16 | Icl16), E32 => IPermvar 32 16
  | (Skx16 | Icl16), E64 => IHalves 64 8
  (* target-avx512skx-x32.ll:58-140, target-avx512icl-x32.ll:16-21 *)
  | Skx32, E8 => IVia16 (IPermvar 16 32)
  | Icl32, E8 => IPermvar 8 32
  | (Skx32 | Icl32), E16 => IPermvar 16 32
  | (Skx32 | Icl32), E32 => IHalves 32 16
  | (Skx32 | Icl32), E64 => IGather
  (* target-avx512skx-x64.ll:57-150, target-avx512icl-x64.ll:16-21 *)
  | Skx64, E8 => IVia16 (IHalves 16 32)
  | Icl64, E8 => IPermvar 8 64
  | (Skx64 | Icl64), E16 => IHalves 16 32
  | (Skx64 | Icl64), E32 => IGather
  | (Skx64 | Icl64), E64 => IGather
  end.

(* Which function each target file defines for __shuffle2_<type>. *)
Definition shuffle2_impl (t : target) (e : elt) : impl2 :=
  match t, e with
  (* target-avx1-i64x4.ll:40-80, target-avx2-i32x4.ll:46-86, -i32x8.ll:48-88, -i32x16.ll:120-160 *)
  | (Avx1x4 | Avx2x4 | Avx2x8 | Avx2x16), E32 => I2TwoShuffles (shuffle_impl t E32)
  | (Avx1x4 | Avx2x4 | Avx2x8 | Avx2x16), _ => I2Stack
  (* target-avx512skx-x4.ll:80-190 *)
  | Skx4, E8 => I2Pshufb
  | Skx4, E16 => I2Permvar 16 8
  | Skx4, E32 => I2Permi2 32
  | Skx4, E64 => I2Permi2 64
  (* target-avx512skx-x8.ll:92-170 *)
  | Skx8, E8 => I2Pshufb
  | Skx8, E16 => I2Permi2 16
  | Skx8, E32 => I2Permi2 32
  | Skx8, E64 => I2Stack
  (* target-avx512skx-x16.ll:89-152, target-avx512icl-x16.ll:26-39 *)
  | Skx16, E8 => I2Via16 (I2Permi2 16)
  | Icl16, E8 => I2Permi2 8
  | (Skx16 | Icl16), E16 => I2Permi2 16
  | (Skx16 | Icl16), E32 => I2Permi2 32
  | (Skx16 | Icl16), E64 => I2Stack
  (* target-avx512skx-x32.ll:142-178, target-avx512icl-x32.ll:23-39 *)
  | Skx32, E8 => I2Via16 (I2Permi2 16)
  | Icl32, E8 => I2Permi2 8
  | (Skx32 | Icl32), E16 => I2Permi2 16
  | (Skx32 | Icl32), E32 => I2Stack
  | (Skx32 | Icl32), E64 => I2Stack
  (* target-avx512skx-x64.ll:152-153, target-avx512icl-x64.ll:23-41 *)
  | Skx64, _ => I2Stack
  | Icl64, E8 => I2Permi2 8
  | Icl64, _ => I2Stack
  end.

Definition x86_shuffle (t : target) (e : elt) (v : gang Z) (perm : gang Z) : outcome reg :=
  run1 (width t) (shuffle_impl t e) v perm.

Definition x86_shuffle2 (t : target) (e : elt) (a b : gang Z) (perm : gang Z) : outcome reg :=
  run2 (width t) (shuffle2_impl t e) a b perm.
