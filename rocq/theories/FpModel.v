(** IEEE single precision values as the bit patterns that intbits/floatbits expose.

    ispc's [floatbits]/[intbits] (stdlib/stdlib.ispc: floatbits, intbits, lowered to bitcasts in
    builtins/generic.ispc:975-1003) reinterpret 32 bits.  A float is represented here by its bit
    pattern; arithmetic decodes the operands, applies the standard library's executable IEEE-754
    operations ([SpecFloat], round to nearest even, precision 24, emax 128) and encodes the result.
    Simplification: an arithmetic result that is NaN gets the canonical pattern 0x7fc00000, and
    the flush-to-zero/denormals-are-zero modes are off. *)
From Coq Require Import ZArith SpecFloat.
Local Open Scope Z_scope.

Definition f32_of_bits (b : Z) : spec_float :=
  let s := Z.testbit b 31 in
  let e := (b / 2 ^ 23) mod 2 ^ 8 in
  let m := b mod 2 ^ 23 in
  if e =? 0 then match m with Zpos p => S754_finite s p (-149) | _ => S754_zero s end
  else if e =? 255 then (if m =? 0 then S754_infinity s else S754_nan)
  else match m + 2 ^ 23 with Zpos p => S754_finite s p (e - 150) | _ => S754_nan end.

Definition signbit32 (s : bool) : Z := if s then 2 ^ 31 else 0.

Definition bits_of_f32 (x : spec_float) : Z :=
  match x with
  | S754_zero s => signbit32 s
  | S754_infinity s => signbit32 s + 255 * 2 ^ 23
  | S754_nan => 2143289344 (* 0x7fc00000 *)
  | S754_finite s m e =>
      if Zpos m <? 2 ^ 23 then signbit32 s + Zpos m
      else signbit32 s + (e + 150) * 2 ^ 23 + (Zpos m - 2 ^ 23)
  end.

Definition fadd32 (a b : Z) : Z := bits_of_f32 (SFadd 24 128 (f32_of_bits a) (f32_of_bits b)).
Definition fsub32 (a b : Z) : Z := bits_of_f32 (SFsub 24 128 (f32_of_bits a) (f32_of_bits b)).
Definition fmul32 (a b : Z) : Z := bits_of_f32 (SFmul 24 128 (f32_of_bits a) (f32_of_bits b)).
Definition flt32 (a b : Z) : bool := SFltb (f32_of_bits a) (f32_of_bits b).
Definition isnan32 (a : Z) : bool := match f32_of_bits a with S754_nan => true | _ => false end.

(* max(float, float), min(float, float): builtins/generic.ispc:871-874 are llvm.maxnum/minnum, which
   return the other operand when one is NaN *)
Definition fmaxnum32 (a b : Z) : Z := if isnan32 a then b else if isnan32 b then a else if flt32 a b then b else a.
Definition fminnum32 (a b : Z) : Z := if isnan32 a then b else if isnan32 b then a else if flt32 b a then b else a.
(* on x86 (builtins/target-sse4-i32x4.ll:141-151 and the avx targets) maxps/minps: the second operand
   unless the comparison holds *)
Definition fmaxps32 (a b : Z) : Z := if flt32 b a then a else b.
Definition fminps32 (a b : Z) : Z := if flt32 a b then a else b.

Definition fdiv32 (a b : Z) : Z := bits_of_f32 (SFdiv 24 128 (f32_of_bits a) (f32_of_bits b)).
(* conversion of a (small) integer to float, LLVM sitofp *)
Definition i32_to_f32 (x : Z) : Z := bits_of_f32 (binary_normalize 24 128 x 0 false).

(* src/ispc.cpp:2440 sets FPOpFusion::Fast unless --opt=disable-fma is given: a multiplication feeding an
   addition may be evaluated with a single rounding *)
Definition ffma32 (a b c : Z) : Z :=
  bits_of_f32
    match f32_of_bits a, f32_of_bits b, f32_of_bits c with
    | S754_finite s1 m1 e1, S754_finite s2 m2 e2, S754_finite s3 m3 e3 =>
        let e := Z.min (e1 + e2) e3 in
        binary_normalize 24 128
          (cond_Zopp (xorb s1 s2) (Zpos m1 * Zpos m2 * 2 ^ (e1 + e2 - e)) + cond_Zopp s3 (Zpos m3 * 2 ^ (e3 - e))) e false
    | a, b, c => SFadd 24 128 (SFmul 24 128 a b) c
    end.
Definition fmuladd32 (a b c : Z) : Z := fadd32 (fmul32 a b) c.
