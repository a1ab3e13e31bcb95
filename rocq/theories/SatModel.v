(** Model of the saturating / averaging / dot-product functions of the standard library.
    Parameter [n] is the element width (8, 16, 32, 64); all definitions are the same code
    repeated per width in the source.  Signed values are integers in [in_s n], unsigned
    ones in [in_u n]. *)
From Coq Require Import ZArith Bool.
From Verif Require Import Bits.
Local Open Scope Z_scope.

(** INTn_MAX, stdlib/include/core.isph 320-361 *)
Definition int_max (n : Z) : Z := 2 ^ (n - 1) - 1.
Definition int_min (n : Z) : Z := - int_max n - 1.

(** stdlib/stdlib.ispc 7066-7147: saturating_add for signed types (software path,
    __have_saturating_arithmetic = 0).  [a_unsig >> n-1] is a logical shift. *)
Definition saturating_add_s (n a b : Z) : Z :=
  let a_unsig := wrapu n a in
  let b_unsig := wrapu n b in
  let result := wrapu n (a_unsig + b_unsig) in
  let a_unsig := wrapu n (Z.shiftr a_unsig (n - 1) + int_max n) in
  let t := Z.lor (Z.lxor a_unsig b_unsig) (wrapu n (Z.lnot (Z.lxor b_unsig result))) in
  wraps n (if wraps n t >=? 0 then a_unsig else result).

(** stdlib/stdlib.ispc 7148-7214: saturating_add for unsigned types (software path). *)
Definition saturating_add_u (n a b : Z) : Z :=
  let result := wrapu n (a + b) in
  Z.lor result (wrapu n (- b2z (result <? a))).

(** stdlib/stdlib.ispc 7216-7297: saturating_sub for signed types (software path). *)
Definition saturating_sub_s (n a b : Z) : Z :=
  let a_unsig := wrapu n a in
  let b_unsig := wrapu n b in
  let result := wrapu n (a_unsig - b_unsig) in
  let a_unsig := wrapu n (Z.shiftr a_unsig (n - 1) + int_max n) in
  let t := Z.land (Z.lxor a_unsig b_unsig) (Z.lxor a_unsig result) in
  wraps n (if wraps n t <? 0 then a_unsig else result).

(** stdlib/stdlib.ispc 7298-7365: saturating_sub for unsigned types (software path). *)
Definition saturating_sub_u (n a b : Z) : Z :=
  let result := wrapu n (a - b) in
  Z.land result (wrapu n (- b2z (result <=? a))).

(** stdlib/stdlib.ispc 7366-7413: saturating_div, signed.  The expression
    [(b + 1) | ((unsigned)a + INTn_MIN)] is evaluated in the common type of intn and the
    int32/int64 literals, i.e. in max(n,32) bits.  [None] is division by zero (undefined). *)
Definition saturating_div_s (n a b : Z) : option Z :=
  let m := Z.max n 32 in
  let t := Z.lor (wrapu m (b + 1)) (wrapu m (wrapu n a + int_min n)) in
  let a := wraps n (a + b2z (t =? 0)) in
  if b =? 0 then None else Some (wraps n (Z.quot a b)).

(** stdlib/stdlib.ispc 7414-7453: saturating_div, unsigned. *)
Definition saturating_div_u (n a b : Z) : option Z :=
  if b =? 0 then None else Some (wrapu n (a / b)).

(** stdlib/stdlib.ispc 7454-7537: saturating_mul, signed 8/16/32 (software path): the product is
    formed in 2n bits. *)
Definition saturating_mul_s (n a b : Z) : Z :=
  let result := wraps (2 * n) (a * b) in
  let result2 := wrapu n (Z.shiftr (wrapu n (Z.lxor a b)) (n - 1) + int_max n) in
  let hi := wraps n (Z.shiftr result n) in
  let lo := wraps n result in
  wraps n (if negb (hi =? Z.shiftr lo (n - 1)) then result2 else result).

(** stdlib/stdlib.ispc 7538-7603: saturating_mul, unsigned 8/16/32 (software path). *)
Definition saturating_mul_u (n a b : Z) : Z :=
  let result := wrapu (2 * n) (a * b) in
  let hi := wrapu n (Z.shiftr result n) in
  let lo := wrapu n result in
  Z.lor lo (wrapu n (- b2z (negb (hi =? 0)))).

(** stdlib/stdlib.ispc 7704-7737: saturating_mul, unsigned 64 bits, built from 32-bit halves. *)
Definition saturating_mul_u64 (a b : Z) : Z :=
  let a0 := Z.land a (2 ^ 32 - 1) in
  let b0 := Z.land b (2 ^ 32 - 1) in
  let a1 := wrapu 32 (Z.shiftr a 32) in
  let b1 := wrapu 32 (Z.shiftr b 32) in
  if (negb (a1 =? 0)) && (negb (b1 =? 0)) then 2 ^ 64 - 1
  else if negb (a1 =? 0) then
    saturating_add_u 64 (wrapu 64 (Z.shiftl (saturating_mul_u 32 b0 a1) 32)) (wrapu 64 (a0 * b0))
  else if negb (b1 =? 0) then
    saturating_add_u 64 (wrapu 64 (Z.shiftl (saturating_mul_u 32 a0 b1) 32)) (wrapu 64 (a0 * b0))
  else wrapu 64 (a * b).

(** stdlib/stdlib.ispc 7604-7702: saturating_mul, signed 64 bits.  [sign] is 1 or -1. *)
Definition saturating_mul_s64 (a b : Z) : Z :=
  let sign := if ((0 <? a) && (0 <? b)) || ((a <? 0) && (b <? 0)) then 1 else -1 in
  let abs64 x := if x =? int_min 64 then wrapu 64 (int_min 64)
                 else wrapu 64 (if 0 <? x then x else wraps 64 (- x)) in
  let a_abs := abs64 a in
  let b_abs := abs64 b in
  let a0 := Z.land a_abs (2 ^ 32 - 1) in
  let b0 := Z.land b_abs (2 ^ 32 - 1) in
  let a1 := wrapu 32 (Z.shiftr a_abs 32) in
  let b1 := wrapu 32 (Z.shiftr b_abs 32) in
  if (negb (a1 =? 0)) && (negb (b1 =? 0)) then
    (if 0 <? sign then int_max 64 else int_min 64)
  else
    let ret :=
      if negb (a1 =? 0) then
        saturating_add_u 64 (wrapu 64 (Z.shiftl (saturating_mul_u 32 b0 a1) 32)) (wrapu 64 (a0 * b0))
      else if negb (b1 =? 0) then
        saturating_add_u 64 (wrapu 64 (Z.shiftl (saturating_mul_u 32 a0 b1) 32)) (wrapu 64 (a0 * b0))
      else wrapu 64 (a_abs * b_abs) in
    if (sign <? 0) && (wrapu 64 (int_min 64) <=? ret) then int_min 64
    else if (0 <? sign) && (int_max 64 <=? ret) then int_max 64
    else wraps 64 (ret * sign).

(** builtins/util.m4 328-376 (saturation_arithmetic_novec_universal): the varying 8/16-bit add/sub
    on targets without such instructions; [op] is the LLVM [add] or [sub] in 2n bits. *)
Definition novec_s (op : Z -> Z -> Z) (n a b : Z) : Z :=
  let res := wraps (2 * n) (op a b) in
  let over_res := if int_max n <? res then int_max n else res in
  let ret := if res <? int_min n then int_min n else over_res in
  wraps n ret.

Definition novec_u (op : Z -> Z -> Z) (n a b : Z) : Z :=
  let res := wrapu (2 * n) (op a b) in
  let over_res := if 2 ^ n - 1 <? res then 2 ^ n - 1 else res in
  let ret := if wraps (2 * n) res <? 0 then 0 else over_res in
  wrapu n ret.

(** builtins/generic.ispc 923-934: averages; the literal 1 makes the sum 32-bit arithmetic, and
    [>>] is logical for unsigned, arithmetic for signed operands. *)
Definition avg_up_u_generic (n a b : Z) : Z := wrapu n (Z.shiftr (wrapu 32 (a + b + 1)) 1).
Definition avg_down_u_generic (n a b : Z) : Z := wrapu n (Z.shiftr (wrapu (2 * n) (a + b)) 1).
Definition avg_up_s_generic (n a b : Z) : Z := wraps n (Z.shiftr (wraps 32 (a + b + 1)) 1).
Definition avg_down_s_generic (n a b : Z) : Z := wraps n (Z.shiftr (wraps (2 * n) (a + b)) 1).

(** builtins/util.m4 7621-7704: the averages of the m4 targets: [lshr] by 1 for unsigned, but
    [sdiv] by 2 for signed operands. *)
Definition avg_up_u_m4 (n a b : Z) : Z := wrapu n (Z.shiftr (wrapu (2 * n) (a + b + 1)) 1).
Definition avg_down_u_m4 (n a b : Z) : Z := wrapu n (Z.shiftr (wrapu (2 * n) (a + b)) 1).
Definition avg_up_s_m4 (n a b : Z) : Z := wraps n (Z.quot (wraps (2 * n) (a + b + 1)) 2).
Definition avg_down_s_m4 (n a b : Z) : Z := wraps n (Z.quot (wraps (2 * n) (a + b)) 2).

(** ** Dot products (software fallbacks), stdlib/stdlib.ispc 7956-8146.
    [ubyte a k] is [(a >> 8k) & 0xFF], [sbyte] is the same reinterpreted as int8; similarly for
    16-bit halves.  int16 products are wrapped to 16 bits as the [int16 tmp] variables are. *)
Definition ubyte (a k : Z) : Z := Z.land (Z.shiftr a (8 * k)) 255.
Definition sbyte (a k : Z) : Z := wraps 8 (ubyte a k).
Definition uhalf (a k : Z) : Z := Z.land (Z.shiftr a (16 * k)) 65535.
Definition shalf (a k : Z) : Z := wraps 16 (uhalf a k).

(** 7964-7974 *)
Definition dot4add_u8i8packed (a b acc : Z) : Z :=
  let tmp k := wraps 16 (ubyte a k * sbyte b k) in
  wraps 32 (tmp 3 + tmp 2 + tmp 1 + tmp 0 + acc).
(** 7979-7991 *)
Definition dot4add_u8i8packed_sat (a b acc : Z) : Z :=
  let tmp k := wraps 16 (ubyte a k * sbyte b k) in
  saturating_add_s 32 (wraps 32 (tmp 3 + tmp 2 + tmp 1 + tmp 0)) acc.
(** 7996-8007: the products are stored in [int16] and converted to uint32 *)
Definition dot4add_u8u8packed (a b acc : Z) : Z :=
  let tmp k := wrapu 32 (wraps 16 (ubyte a k * ubyte b k)) in
  wrapu 32 (tmp 3 + tmp 2 + tmp 1 + tmp 0 + acc).
(** 8012-8024 *)
Definition dot4add_u8u8packed_sat (a b acc : Z) : Z :=
  let tmp k := wrapu 16 (ubyte a k * ubyte b k) in
  saturating_add_u 32 (wrapu 32 (tmp 3 + tmp 2 + tmp 1 + tmp 0)) acc.
(** 8029-8039 *)
Definition dot4add_i8i8packed (a b acc : Z) : Z :=
  let tmp k := wraps 16 (sbyte a k * sbyte b k) in
  wraps 32 (tmp 3 + tmp 2 + tmp 1 + tmp 0 + acc).
(** 8044-8056: no sign extension of the bytes here *)
Definition dot4add_i8i8packed_sat (a b acc : Z) : Z :=
  let tmp k := wraps 16 (ubyte a k * ubyte b k) in
  saturating_add_s 32 (wraps 32 (tmp 3 + tmp 2 + tmp 1 + tmp 0)) acc.
(** 8061-8070 *)
Definition dot2add_i16i16packed (a b acc : Z) : Z :=
  let tmp k := wraps 32 (shalf a k * shalf b k) in
  wraps 32 (tmp 1 + tmp 0 + acc).
(** 8075-8084 *)
Definition dot2add_i16i16packed_sat (a b acc : Z) : Z :=
  let tmp k := wraps 32 (shalf a k * shalf b k) in
  saturating_add_s 32 (saturating_add_s 32 (tmp 1) (tmp 0)) acc.
(** 8089-8099 *)
Definition dot2add_u16u16packed (a b acc : Z) : Z :=
  let tmp k := wrapu 32 (uhalf a k * uhalf b k) in
  wrapu 32 (acc + tmp 1 + tmp 0).
(** 8104-8115 *)
Definition dot2add_u16u16packed_sat (a b acc : Z) : Z :=
  let tmp k := wrapu 32 (uhalf a k * uhalf b k) in
  saturating_add_u 32 (saturating_add_u 32 acc (tmp 1)) (tmp 0).
(** 8120-8130 *)
Definition dot2add_u16i16packed (a b acc : Z) : Z :=
  let tmp k := wraps 32 (uhalf a k * shalf b k) in
  wraps 32 (acc + tmp 1 + tmp 0).
(** 8135-8146 *)
Definition dot2add_u16i16packed_sat (a b acc : Z) : Z :=
  let tmp k := wraps 32 (uhalf a k * shalf b k) in
  saturating_add_s 32 (saturating_add_s 32 acc (tmp 1)) (tmp 0).
