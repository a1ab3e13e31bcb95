(** Specification of saturating arithmetic, averages and dot products, in terms of exact
    integer arithmetic only. *)
From Coq Require Import ZArith.
Local Open Scope Z_scope.

(** The exact result forced into the range of the signed / unsigned n-bit type. *)
Definition sat_signed (n x : Z) : Z := Z.max (- 2 ^ (n - 1)) (Z.min (2 ^ (n - 1) - 1) x).
Definition sat_unsigned (n x : Z) : Z := Z.max 0 (Z.min (2 ^ n - 1) x).

(** Values of an n-bit type. *)
Definition signed_value (n x : Z) : Prop := - 2 ^ (n - 1) <= x <= 2 ^ (n - 1) - 1.
Definition unsigned_value (n x : Z) : Prop := 0 <= x <= 2 ^ n - 1.

(** The k-th w-bit field of a packed word, as unsigned and as two's complement number. *)
Definition field_u (w a k : Z) : Z := (a / 2 ^ (w * k)) mod 2 ^ w.
Definition field_s (w a k : Z) : Z :=
  let f := field_u w a k in if f <? 2 ^ (w - 1) then f else f - 2 ^ w.

(** Sum of the products of the fields. *)
Definition dot4 (fa fb : Z -> Z -> Z -> Z) (a b : Z) : Z :=
  fa 8 a 0 * fb 8 b 0 + fa 8 a 1 * fb 8 b 1 + fa 8 a 2 * fb 8 b 2 + fa 8 a 3 * fb 8 b 3.
Definition dot2 (fa fb : Z -> Z -> Z -> Z) (a b : Z) : Z :=
  fa 16 a 0 * fb 16 b 0 + fa 16 a 1 * fb 16 b 1.

(** Wrap to 32 bits: the unique value of the type congruent to x modulo 2^32. *)
Definition wraps_to_s32 (x y : Z) : Prop := signed_value 32 y /\ exists q, x = y + q * 2 ^ 32.
Definition wraps_to_u32 (x y : Z) : Prop := unsigned_value 32 y /\ exists q, x = y + q * 2 ^ 32.
