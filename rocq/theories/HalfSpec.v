(** What a 16- or 32-bit IEEE pattern denotes, in integers.  Finite singles are multiples of
    2^-149 and finite halves multiples of 2^-24, so [val32 f = val16 h * 2^125] says that
    they denote the same number. *)
From Coq Require Import ZArith Bool.
Local Open Scope Z_scope.

Definition is32 (b : Z) : Prop := 0 <= b < 2 ^ 32.
Definition is16 (b : Z) : Prop := 0 <= b < 2 ^ 16.

Definition neg32 (b : Z) : bool := 2 ^ 31 <=? b.
Definition exp32 (b : Z) : Z := (b / 2 ^ 23) mod 2 ^ 8.
Definition man32 (b : Z) : Z := b mod 2 ^ 23.
Definition finite32 (b : Z) : Prop := exp32 b <> 255.
Definition inf32 (b : Z) : Prop := exp32 b = 255 /\ man32 b = 0.
Definition nan32 (b : Z) : Prop := exp32 b = 255 /\ man32 b <> 0.
Definition mag32 (b : Z) : Z := if exp32 b =? 0 then man32 b else (man32 b + 2 ^ 23) * 2 ^ (exp32 b - 1).
Definition val32 (b : Z) : Z := if neg32 b then - mag32 b else mag32 b.

Definition neg16 (b : Z) : bool := 2 ^ 15 <=? b.
Definition exp16 (b : Z) : Z := (b / 2 ^ 10) mod 2 ^ 5.
Definition man16 (b : Z) : Z := b mod 2 ^ 10.
Definition finite16 (b : Z) : Prop := exp16 b <> 31.
Definition inf16 (b : Z) : Prop := exp16 b = 31 /\ man16 b = 0.
Definition nan16 (b : Z) : Prop := exp16 b = 31 /\ man16 b <> 0.
Definition mag16 (b : Z) : Z := if exp16 b =? 0 then man16 b else (man16 b + 2 ^ 10) * 2 ^ (exp16 b - 1).
Definition val16 (b : Z) : Z := if neg16 b then - mag16 b else mag16 b.

(** The distance between a half and a single, in units of 2^-149 *)
Definition dist (h f : Z) : Z := Z.abs (val16 h * 2 ^ 125 - val32 f).

(** [h] is a finite half nearest to the single [f]; of two nearest ones, the larger in magnitude *)
Definition nearest_ties_away (f h : Z) : Prop :=
  is16 h /\ finite16 h /\
  forall h', is16 h' -> finite16 h' ->
    dist h f <= dist h' f /\ (dist h f = dist h' f -> Z.abs (val16 h') <= Z.abs (val16 h)).

(** [h] is a finite half nearest to [f]; of two nearest ones, the one with an even pattern.  This is what
    the hardware conversions return (builtins/target-avx2-i32x8.ll:156-165: vcvtps2ph, round to nearest even). *)
Definition nearest_ties_even (f h : Z) : Prop :=
  is16 h /\ finite16 h /\
  forall h', is16 h' -> finite16 h' ->
    dist h f <= dist h' f /\ (dist h f = dist h' f -> val16 h' <> val16 h -> Z.even h = true).
