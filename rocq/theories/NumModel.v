(** The integer helpers of the standard library: memory copies, division under a mask and bit
    counting.

    Byte addresses are 64-bit: [addr base j] wraps.  The functions with a loop take fuel and answer
    [None] when it runs out; [None] also stands for undefined behaviour. *)
From Coq Require Import ZArith List Bool.
From Verif Require Import Bits LanesModel ForeachModel AtomicsModel.
Import ListNotations.
Local Open Scope Z_scope.

(** ** memcpy, memmove, memset (stdlib/stdlib.ispc:828-1020)

    Modelled: the branch taken when __is_xe_target is set, written as loops over bytes.  The other
    branch calls llvm.memcpy / llvm.memmove / llvm.memset (builtins/generic.ispc:564-582), whose
    meaning is LLVM's. *)

Definition mem := Z -> Z.

(* ((int8 * uniform) base)[j]: the pointee is a uniform int8, one byte *)
Definition addr (base j : Z) : Z := wrapu 64 (base + j).
Definition store_byte (m : mem) (a x : Z) : mem := fun b => if b =? a then x else m b.

(* for (uniform int j = j; test(j); j++) dst[j] = src[j]
   j + 1 does not overflow: the test bounds j by the count. *)
Fixpoint copy_up (fuel : nat) (test : Z -> bool) (dst src j : Z) (m : mem) : option mem :=
  match fuel with
  | O => None
  | S f => if test j then copy_up f test dst src (j + 1) (store_byte m (addr dst j) (m (addr src j)))
           else Some m
  end.
(* for (uniform int j = j; j >= 0; j--) dst[j] = src[j] *)
Fixpoint copy_down (fuel : nat) (dst src j : Z) (m : mem) : option mem :=
  match fuel with
  | O => None
  | S f => if 0 <=? j then copy_down f dst src (j - 1) (store_byte m (addr dst j) (m (addr src j)))
           else Some m
  end.
(* for (uniform int j = j; test(j); j++) dst[j] = val *)
Fixpoint fill_up (fuel : nat) (test : Z -> bool) (dst val j : Z) (m : mem) : option mem :=
  match fuel with
  | O => None
  | S f => if test j then fill_up f test dst val (j + 1) (store_byte m (addr dst j) val)
           else Some m
  end.

(* 831-849 memcpy, memcpy64 with uniform arguments *)
Definition memcpy (fuel : nat) (dst src count : Z) (m : mem) : option mem :=
  copy_up fuel (fun j => j <? count) dst src 0 m.

(* 889-921 memmove (n = 32), memmove64 (n = 64) with uniform arguments.  [test] is the condition of
   the forward loop, [count] the value compared with the distance and the start of the backward
   loop.  uintptr_t and size_t are 64-bit unsigned; the conversion of the count sign-extends; the
   decrement is the signed one of the counter's type. *)
Definition memmove_test (n : Z) (fuel : nat) (test : Z -> bool) (dst src count : Z) (m : mem) : option mem :=
  if wrapu 64 count <=? wrapu 64 (dst - src) then copy_up fuel test dst src 0 m
  else if (- 2 ^ (n - 1) <=? count - 1) then copy_down fuel dst src (count - 1) m
  else None.
Definition memmove (n : Z) (fuel : nat) (dst src count : Z) (m : mem) : option mem :=
  memmove_test n fuel (fun j => j <? count) dst src count m.

(* 971-989 memset, memset64 with uniform arguments *)
Definition memset (fuel : nat) (dst val count : Z) (m : mem) : option mem :=
  fill_up fuel (fun j => j <? count) dst val 0 m.

(* the array  void * uniform da[programCount]; da[programIndex] = dst;  only running lanes store *)
Definition spill (mask : gang bool) (p : gang Z) : gang (option Z) :=
  fun l => if mask l then Some (p l) else None.
Definition load_spilled (W : nat) (a : gang (option Z)) (i : Z) : option Z :=
  match extract W a i with Some (Some d) => Some d | _ => None end.

(* 851-887 memcpy, memcpy64 with varying arguments *)
Definition memcpy_varying (W : nat) (mask : gang bool) (fuel : nat) (dst src count : gang Z) (m : mem)
  : option mem :=
  foreach_active_do W mask
    (fun i _ m =>
       match load_spilled W (spill mask dst) i, load_spilled W (spill mask src) i, extract W count i with
       | Some d, Some s, Some c => copy_up fuel (fun j => j <? c) d s 0 m
       | _, _, _ => None
       end) fuel m.

(* 923-969 memmove, memmove64 with varying arguments.  The forward loop compares j with the varying
   count, so it runs while some lane that is on passes the test. *)
Definition memmove_varying (n : Z) (W : nat) (mask : gang bool) (fuel : nat) (dst src count : gang Z) (m : mem)
  : option mem :=
  foreach_active_do W mask
    (fun i im m =>
       match load_spilled W (spill mask dst) i, load_spilled W (spill mask src) i, extract W count i with
       | Some d, Some s, Some c =>
           memmove_test n fuel (fun j => existsb (fun l => im l && (j <? count l)) (lanes W)) d s c m
       | _, _, _ => None
       end) fuel m.

(* 991-1020 memset, memset64 with varying arguments *)
Definition memset_varying (W : nat) (mask : gang bool) (fuel : nat) (dst val count : gang Z) (m : mem)
  : option mem :=
  foreach_active_do W mask
    (fun i _ m =>
       match load_spilled W (spill mask dst) i, extract W val i, extract W count i with
       | Some d, Some x, Some c => fill_up fuel (fun j => j <? c) d x 0 m
       | _, _, _ => None
       end) fuel m.

(** ** Integer division and remainder *)

Inductive divop := SDiv | UDiv | SRem | URem.
Definition is_signed_div (op : divop) : bool := match op with SDiv | SRem => true | _ => false end.

(* The LLVM instructions sdiv, udiv, srem, urem on iN scalars; [None]: undefined behaviour.  Operands
   are given as values of the source type. *)
Definition div_scalar (n : Z) (op : divop) (x y : Z) : option Z :=
  if y =? 0 then None
  else if is_signed_div op && (x =? - 2 ^ (n - 1)) && (y =? -1) then None
  else Some (match op with SDiv | UDiv => Z.quot x y | SRem | URem => Z.rem x y end).

(* The same on a whole vector: undefined when any lane is. *)
Definition div_vector (n : Z) (op : divop) (W : nat) (a b : gang Z) : option (gang Z) :=
  if forallb (fun l => match div_scalar n op (a l) (b l) with Some _ => true | None => false end) (lanes W)
  then Some (fun l => match div_scalar n op (a l) (b l) with Some x => x | None => 0 end)
  else None.

(* builtins/generic.ispc:283-320 __idiv_t, __irem_t and the exported __sdiv_i8 ... __urem_i64.
   The mask is the function's mask parameter. *)
Definition idiv_builtin (n : Z) (op : divop) (W : nat) (mask : gang bool) (fuel : nat) (a b : gang Z)
  : option (gang Z) :=
  foreach_active_do W mask
    (fun i im res =>
       match extract W a i, extract W b i with
       | Some x, Some y =>
           match div_scalar n op x y with
           | Some q => Some (fun l => if im l then insert res (Z.to_nat i) q l else res l)
           | None => None
           end
       | _, _ => None
       end) fuel (fun _ => 0).

(* src/ctx.cpp:1724-1783 VectorIntDivision; [mask] is GetFullMask() *)
Definition vector_int_division (n : Z) (op : divop) (W : nat) (mask : gang bool) (fuel : nat) (a b : gang Z)
  : option (gang Z) :=
  if b_all W mask then div_vector n op W a b else idiv_builtin n op W mask fuel a b.

(* The divisor as src/ctx.cpp:1658-1668 lIsConstantVectorOfSameValue sees it: a constant splat, or
   anything else. *)
Inductive divisor := Splat (c : Z) | Value (b : gang Z).
Definition divisor_at (d : divisor) (l : nat) : Z := match d with Splat c => c | Value b => b l end.

(* src/ctx.cpp:1785-1815 BinaryOperator for SDiv/UDiv/SRem/URem on a varying type.  Simplification:
   short vectors are divided element by element with the same code and are not modelled. *)
Definition varying_division (xe : bool) (n : Z) (op : divop) (W : nat) (mask : gang bool) (fuel : nat)
    (a : gang Z) (d : divisor) : option (gang Z) :=
  match d with
  | Splat c => div_vector n op W a (fun _ => c)
  | Value b => if xe then div_vector n op W a b else vector_int_division n op W mask fuel a b
  end.

(** ** Bit counting *)

(* LLVM's ctlz, cttz (with is_zero_poison = false) and ctpop on iN *)
Fixpoint ctlz_from (k : nat) (x : Z) : Z :=
  match k with
  | O => 0
  | S k' => if Z.testbit x (Z.of_nat k') then 0 else 1 + ctlz_from k' x
  end.
Definition ctlz (n : nat) (x : Z) : Z := ctlz_from n x.
Definition cttz (n : nat) (x : Z) : Z := cttz_from n x 0.
Fixpoint ctpop (n : nat) (x : Z) : Z :=
  match n with
  | O => 0
  | S k => ctpop k x + b2z (Z.testbit x (Z.of_nat k))
  end.

(* stdlib/stdlib.ispc:1063-1083, 1101-1121 count_leading_zeros on varying values, the branch without
   conflict detection:  for (i = 0; i < programCount; ++i) r = insert(r, i, clz(extract(v, i)));
   the assignment to r is masked. *)
Fixpoint lane_loop (W : nat) (k : nat) (i : Z) (f : Z -> Z) (im : gang bool) (v : gang Z) (r : gang (option Z))
  : option (gang (option Z)) :=
  match k with
  | O => Some r
  | S k' => match extract W v i with
            | Some x => lane_loop W k' (i + 1) f im v (insert_masked im r i (f x))
            | None => None
            end
  end.
Definition clz_varying (n : nat) (W : nat) (mask : gang bool) (v : gang Z) : option (gang (option Z)) :=
  lane_loop W W 0 (ctlz n) mask v (fun _ => None).

(* builtins/generic.ispc:951-958: with conflict detection, llvm.ctlz on the vector; the 64-bit version
   passes the result through int32. *)
Definition clz_vector (n : nat) (v : gang Z) : gang Z :=
  fun l => if Nat.eqb n 64 then wraps 32 (ctlz n (v l)) else ctlz n (v l).
(* builtins/generic.ispc:943-950 *)
Definition ctz_vector (n : nat) (v : gang Z) : gang Z := fun l => cttz n (v l).

(* builtins/generic.ispc:960-972 __popcnt_intN_varying: the function itself is unmasked *)
Definition popcnt_varying (n : nat) (W : nat) (mask : gang bool) (v : gang Z) : option (gang (option Z)) :=
  match lane_loop W W 0 (fun x => wraps 32 (ctpop n x)) (fun _ => true) v (fun _ => None) with
  | Some r => Some (fun l => if mask l then r l else Some 0)
  | None => None
  end.

(* stdlib/stdlib.ispc:806-813 popcnt(bool) *)
Definition popcnt_bool (W : nat) (mask v : gang bool) : Z :=
  wraps 32 (ctpop 64 (movmsk W (fun l => v l && mask l))).
