(** What the bits of a floating-point value mean (IEEE 754), independently of the arithmetic of the model.  Values are counted in
    units: one unit is the smallest positive number of the format, and every finite number is a whole number of units. *)
From Coq Require Import ZArith.
From Verif Require Import FloatModel.
Local Open Scope Z_scope.

(** The three formats. *)
Definition format (F : fmt) : Prop := F = f16 \/ F = f32 \/ F = f64.
Definition pattern (F : fmt) (x : Z) : Prop := 0 <= x < 2 ^ width F.
Definition exponent (F : fmt) (x : Z) : Z := (x / 2 ^ mw F) mod 2 ^ ew F.
Definition fraction (F : fmt) (x : Z) : Z := x mod 2 ^ mw F.
Definition negative (F : fmt) (x : Z) : Prop := 2 ^ (width F - 1) <= x.
Definition finite (F : fmt) (x : Z) : Prop := exponent F x < 2 ^ ew F - 1.
Definition infinite (F : fmt) (x : Z) : Prop := exponent F x = 2 ^ ew F - 1 /\ fraction F x = 0.
Definition not_a_number (F : fmt) (x : Z) : Prop := exponent F x = 2 ^ ew F - 1 /\ fraction F x <> 0.
Definition normal (F : fmt) (x : Z) : Prop := 0 < exponent F x < 2 ^ ew F - 1.
Definition magnitude (F : fmt) (x : Z) : Z :=
  if exponent F x =? 0 then fraction F x else (2 ^ mw F + fraction F x) * 2 ^ (exponent F x - 1).
(** The value, in units. *)
Definition units (F : fmt) (x : Z) : Z := if 2 ^ (width F - 1) <=? x then - magnitude F x else magnitude F x.
(** The number 1, in units. *)
Definition unit1 (F : fmt) : Z := 2 ^ (mw F + 2 ^ (ew F - 1) - 2).

(** [r] is the integer nearest to n/d, an even one if two are equally near. *)
Definition nearest_even (n d r : Z) : Prop := 2 * Z.abs (n - r * d) <= d /\ (2 * Z.abs (n - r * d) = d -> Z.even r = true).
Definition floor_of (n d r : Z) : Prop := r * d <= n < (r + 1) * d.
Definition ceil_of (n d r : Z) : Prop := (r - 1) * d < n <= r * d.
(** towards zero *)
Definition trunc_of (n d r : Z) : Prop := (0 <= n -> floor_of n d r) /\ (n <= 0 -> ceil_of n d r).
(** The bits [y] are a finite number with the integer value [r]. *)
Definition is_integer (F : fmt) (y r : Z) : Prop := pattern F y /\ finite F y /\ units F y = r * unit1 F.
(** a = b * 2^n *)
Definition scaled (n a b : Z) : Prop := a * 2 ^ Z.max 0 (- n) = b * 2 ^ Z.max 0 n.
(** A number that is not NaN, and the order of these numbers, infinities included (-0 and +0 are equal). *)
Definition number (F : fmt) (x : Z) : Prop := pattern F x /\ ~ not_a_number F x.
Definition value_le (F : fmt) (a b : Z) : Prop :=
  (infinite F a /\ negative F a) \/ (infinite F b /\ ~ negative F b) \/ (finite F a /\ finite F b /\ units F a <= units F b).
Definition same_value (F : fmt) (a b : Z) : Prop := value_le F a b /\ value_le F b a.
