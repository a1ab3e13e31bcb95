(** Floating-point formats as bit patterns, and the functions of the standard library that work on the representation:
    round, floor, ceil and trunc where a target has no instruction for them, ldexp, frexp, abs, signbits, isnan, isinf,
    isfinite, min, max, clamp and fmod.

    A value of type float16, float or double is the integer whose binary digits are its representation
    (intbits/floatbits/doublebits/float16bits are bitcasts, builtins/generic.ispc 975-1003).  Arithmetic decodes the operands,
    applies the IEEE-754 operations of Coq's [SpecFloat] (round to nearest even) and encodes the result.
    Simplifications: a NaN that an arithmetic operation produces has the default pattern, and denormal numbers are not flushed.
    One lane is modelled, except where lanes influence each other (fmod below). *)
From Coq Require Import ZArith List Bool SpecFloat.
Import ListNotations.
Local Open Scope Z_scope.

(** [mw]: bits of the fraction, [ew]: bits of the exponent. *)
Record fmt := Fmt { mw : Z; ew : Z }.
Definition f16 := Fmt 10 5.
Definition f32 := Fmt 23 8.
Definition f64 := Fmt 52 11.
Definition prec (F : fmt) : Z := mw F + 1.
Definition emx (F : fmt) : Z := 2 ^ (ew F - 1).
Definition width (F : fmt) : Z := mw F + ew F + 1.

Definition decode (F : fmt) (b : Z) : spec_float :=
  let s := Z.testbit b (mw F + ew F) in
  let e := (b / 2 ^ mw F) mod 2 ^ ew F in
  let m := b mod 2 ^ mw F in
  if e =? 0 then match m with Zpos p => S754_finite s p (emin (prec F) (emx F)) | _ => S754_zero s end
  else if e =? 2 ^ ew F - 1 then (if m =? 0 then S754_infinity s else S754_nan)
  else match m + 2 ^ mw F with Zpos p => S754_finite s p (e - 1 + emin (prec F) (emx F)) | _ => S754_nan end.

Definition sign_of (F : fmt) (s : bool) : Z := if s then 2 ^ (mw F + ew F) else 0.

Definition encode (F : fmt) (x : spec_float) : Z :=
  match x with
  | S754_zero s => sign_of F s
  | S754_infinity s => sign_of F s + (2 ^ ew F - 1) * 2 ^ mw F
  | S754_nan => (2 ^ ew F - 1) * 2 ^ mw F + 2 ^ (mw F - 1)
  | S754_finite s m e =>
      if Zpos m <? 2 ^ mw F then sign_of F s + Zpos m
      else sign_of F s + (e - emin (prec F) (emx F) + 1) * 2 ^ mw F + (Zpos m - 2 ^ mw F)
  end.

Definition fadd (F : fmt) (a b : Z) : Z := encode F (SFadd (prec F) (emx F) (decode F a) (decode F b)).
Definition fsub (F : fmt) (a b : Z) : Z := encode F (SFsub (prec F) (emx F) (decode F a) (decode F b)).
Definition fmul (F : fmt) (a b : Z) : Z := encode F (SFmul (prec F) (emx F) (decode F a) (decode F b)).
Definition fdiv (F : fmt) (a b : Z) : Z := encode F (SFdiv (prec F) (emx F) (decode F a) (decode F b)).
(* fcmp olt, ogt, oge, oeq and une *)
Definition flt (F : fmt) (a b : Z) : bool := SFltb (decode F a) (decode F b).
Definition fge (F : fmt) (a b : Z) : bool := SFleb (decode F b) (decode F a).
Definition feq (F : fmt) (a b : Z) : bool := SFeqb (decode F a) (decode F b).

(** builtins/target-sse2-common.ll 177-188, target-sse2-i32x4.ll 44-55, target-sse2-i32x8.ll 318-329, target-wasm-i32x4.ll
    257-268 and 290-301 (float, [K] = 8388608.0); builtins/target-xe.ll 98-109 and 699-719 (double, [K] = 4.5036e+15): the sign is
    removed, [K] is added and subtracted again, and the sign is put back. *)
Definition magic_round (F : fmt) (K : Z) (x : Z) : Z :=
  let sign := Z.land x (2 ^ (width F - 1)) in
  let a := Z.lxor x sign in
  let s := fadd F (fadd F a K) (Z.lxor K (2 ^ (width F - 1))) in
  Z.lxor s sign.

Definition bits_8388608 : Z := 150 * 2 ^ 23.                    (* 8.388608e+06 as float *)
Definition bits_4_5036e15 : Z := 1075 * 2 ^ 52 + 372629504.     (* 4.5036e+15 as double: 4503600000000000 = 2^52 + 372629504 *)
Definition bits_1024 : Z := 25600.                              (* 0xH6400 *)

Definition round_float := magic_round f32 bits_8388608.
Definition round_double_xe := magic_round f64 bits_4_5036e15.

(** 1.0 *)
Definition bits_one (F : fmt) : Z := (emx F - 1) * 2 ^ mw F.

(** builtins/target-sse2-common.ll 203-211, target-sse2-i32x4.ll 70-78, target-wasm-i32x4.ll 270-278, target-xe.ll 111-119: one is
    subtracted if rounding went up. *)
Definition magic_floor (F : fmt) (K : Z) (x : Z) : Z :=
  let y := magic_round F K x in
  let delta := if flt F x y then Z.lxor (bits_one F) (2 ^ (width F - 1)) else 0 in
  fadd F y delta.

(** builtins/target-sse2-common.ll 225-233, target-sse2-i32x4.ll 92-100, target-wasm-i32x4.ll 280-288, target-xe.ll 121-129. *)
Definition magic_ceil (F : fmt) (K : Z) (x : Z) : Z :=
  let y := magic_round F K x in
  let delta := if flt F y x then bits_one F else 0 in
  fadd F y delta.

(** builtins/util.m4 6350-6376 (uniform): nothing to do from 1024 on. *)
Definition round_half_uniform (x : Z) : Z :=
  let sign := Z.land x (2 ^ 15) in
  let a := Z.lxor x sign in
  if fge f16 a bits_1024 then x
  else Z.lxor (fadd f16 (fadd f16 a bits_1024) (Z.lxor bits_1024 (2 ^ 15))) sign.

(** builtins/util.m4 6378-6400 (varying): the large values are replaced by zero before the additions and selected afterwards. *)
Definition round_half_varying (x : Z) : Z :=
  let sign := Z.land x (2 ^ 15) in
  let a := Z.lxor x sign in
  let large := fge f16 a bits_1024 in
  let masked := if large then 0 else a in
  let r := Z.lxor (fadd f16 (fadd f16 masked bits_1024) (Z.lxor bits_1024 (2 ^ 15))) sign in
  if large then x else r.

(** LLVM's lshr and shl of an i64: poison if the amount, as an unsigned number, is 64 or more. *)
Definition lshr64 (a n : Z) : option Z := if (0 <=? n) && (n <? 64) then Some (a / 2 ^ n) else None.
Definition shl64 (a n : Z) : option Z := if (0 <=? n) && (n <? 64) then Some ((a * 2 ^ n) mod 2 ^ 64) else None.

(** builtins/util-xe.m4 1234-1256 (uniform, [keep_sign] = true: `or`) and 1259-1283 (varying, [keep_sign] = false: `and` with 0).
    [None]: the result is poison. *)
Definition trunc_double_xe (keep_sign : bool) (x : Z) : option Z :=
  let sign_and_exp := Z.land x (2 ^ 64 - 2 ^ 52) in
  let mantissa := Z.land x (2 ^ 52 - 1) in
  let expi := Z.land (x / 2 ^ 52) 2047 in
  let exp := expi - 1023 in
  let is_zero := exp <=? -1 in
  let is_inf_nan := expi =? 2047 in
  let trim := 52 - exp in
  let non0 :=
    match lshr64 mantissa trim with
    | Some a => match shl64 a trim with Some c => Some (Z.lor sign_and_exp c) | None => None end
    | None => None
    end in
  let sign := Z.land x (2 ^ 63) in
  let ret0 := if keep_sign then Z.lor sign 0 else Z.land sign 0 in
  if is_inf_nan then Some x else if is_zero then Some ret0 else non0.

(** The C library's round, which the sse2 targets call for double (builtins/target-sse2-common.ll 243-246, target-sse2-i32x4.ll
    105-107, target-sse2-i32x8.ll 380-382, target-wasm-i32x4.ll 323-325 and 616-619): half-way cases go away from zero (C11
    7.12.9.6).  Defined on the magnitude m * 2^e. *)
Definition libm_round (F : fmt) (x : Z) : Z :=
  match decode F x with
  | S754_finite s m e =>
      if 0 <=? e then x
      else let q := (2 * Zpos m + 2 ^ (- e)) / (2 * 2 ^ (- e)) in
           encode F (match q with 0 => S754_zero s | _ => binary_normalize (prec F) (emx F) (if s then - q else q) 0 s end)
  | _ => x
  end.

(** stdlib/stdlib.ispc 3330-3354 (float), 5916-5940 (float16), 6218-6242 (double).  [fast]: --math-lib=fast.  All integer operations are
    modulo the width of the format; n is converted to an integer of that width first. *)
Definition emask (F : fmt) : Z := (2 ^ ew F - 1) * 2 ^ mw F.
Definition ldexp (F : fmt) (fast : bool) (x n : Z) : Z :=
  let ex := Z.land (emask F) x in
  let res := Z.lor (Z.land x (2 ^ width F - 1 - emask F)) (((n * 2 ^ mw F) + ex) mod 2 ^ width F) in
  if fast then res else if feq F x 0 then x else res.

(** stdlib/stdlib.ispc 3356-3374 (float), 5942-5960 (float16), 6244-6262 (double): the mantissa and *pw2. *)
Definition frexp (F : fmt) (x : Z) : Z * Z :=
  let ex := Z.land (emask F) x in
  let ix := Z.land x (2 ^ width F - 1 - emask F) in
  (Z.lor ix ((emx F - 2) * 2 ^ mw F), ex / 2 ^ mw F - (emx F - 2)).

(** stdlib/stdlib.ispc 2229-2299. *)
Definition fabs (F : fmt) (x : Z) : Z := Z.land x (2 ^ (width F - 1) - 1).
Definition signbits (F : fmt) (x : Z) : Z := Z.land x (2 ^ (width F - 1)).
(** stdlib/stdlib.ispc 2170-2213: isnan is v != v. *)
Definition isnan (F : fmt) (x : Z) : bool := negb (feq F x x).
Definition isinf (F : fmt) (x : Z) : bool := fabs F x =? emask F.
Definition isfinite (F : fmt) (x : Z) : bool := negb (Z.land x (emask F) =? emask F).
(** stdlib/stdlib.ispc 2215-2227: integer absolute value; -a wraps in w bits, the result is the signed value. *)
Definition iabs (w : Z) (a : Z) : Z := if 0 <? a then a else (- a + 2 ^ (w - 1)) mod 2 ^ w - 2 ^ (w - 1).

(** min and max of floating-point values, as the targets define them.
    fcmp olt and select, minss, minps, minsd and minpd: the second operand unless the first is less. *)
Definition unordered (F : fmt) (a b : Z) : bool := isnan F a || isnan F b.
Definition min_olt (F : fmt) (a b : Z) : Z := if flt F a b then a else b.
Definition max_ogt (F : fmt) (a b : Z) : Z := if flt F b a then a else b.
(* builtins/target-avx-utils.ll 181-206, target-avx512-utils.ll 63-100: fcmp ogt %1, %0 in both; max selects %1 then *)
Definition max_ogt_swapped (F : fmt) (a b : Z) : Z := if flt F a b then b else a.
(* fcmp ult and ugt *)
Definition min_ult (F : fmt) (a b : Z) : Z := if flt F a b || unordered F a b then a else b.
Definition max_ugt (F : fmt) (a b : Z) : Z := if flt F b a || unordered F a b then a else b.
(* llvm.minnum, llvm.maxnum: the other operand if one is NaN (which of two equal zeros is not specified; the first here) *)
Definition min_num (F : fmt) (a b : Z) : Z := if isnan F a then b else if isnan F b then a else if flt F b a then b else a.
Definition max_num (F : fmt) (a b : Z) : Z := if isnan F a then b else if isnan F b then a else if flt F a b then b else a.
(* llvm.minimum, llvm.maximum: NaN if one is NaN; -0 is less than +0 *)
Definition min_imum (F : fmt) (a b : Z) : Z :=
  if unordered F a b then encode F S754_nan else if flt F a b then a else if flt F b a then b else Z.lor a b.
Definition max_imum (F : fmt) (a b : Z) : Z :=
  if unordered F a b then encode F S754_nan else if flt F a b then b else if flt F b a then a else Z.land a b.

(** __min_/__max_ uniform_float, varying_float, uniform_double, varying_double of a target. *)
Definition minmax : Type := (fmt -> Z -> Z -> Z) * (fmt -> Z -> Z -> Z).
Definition mm_x86 : minmax := (min_olt, max_ogt).
Definition mm_avx : minmax := (min_olt, max_ogt_swapped).
Definition mm_unord : minmax := (min_ult, max_ugt).
Definition mm_num : minmax := (min_num, max_num).
Definition mm_imum : minmax := (min_imum, max_imum).
Inductive mm_target := MSse | MAvx | MAvx512nozmm | MWide | MWasm.
Record mm_row := Row { u_float : minmax; v_float : minmax; u_double : minmax; v_double : minmax }.
Definition mm_table (t : mm_target) : mm_row :=
  match t with
  (* target-sse2-common.ll 103-153, sse2-i32x4.ll 299-333, sse2-i32x8.ll 95-426; target-sse4-common.ll 181-205, sse4-i32x4.ll 141-167,
     sse4-i32x8.ll 95-505, sse4-i16x8.ll 140-190, sse4-i8x16.ll 143-198 *)
  | MSse => Row mm_x86 mm_x86 mm_x86 mm_x86
  (* target-avx-utils.ll 181-206 with avx1-i32x8.ll 137-164, avx1-i32x16.ll 130-597, avx1-i64x4.ll 213-479; target-avx512-utils.ll 63-100
     with avx512skx-x4.ll 254-311, avx512skx-x8.ll 256-340, avx512skx-x16.ll 273-360 *)
  | MAvx => Row mm_avx mm_x86 mm_avx mm_x86
  (* target-avx512-utils.ll with avx512skx-x16-nozmm.ll 188-268 *)
  | MAvx512nozmm => Row mm_avx mm_x86 mm_avx mm_num
  (* target-avx2-i16x16.ll 281-428, avx2-i8x32.ll 301-448, avx512skx-x32.ll 254-353, avx512skx-x64.ll 232-331 *)
  | MWide => Row mm_unord mm_x86 mm_x86 mm_x86
  (* target-wasm-i32x4.ll 342-352, 450-460, 580-614 *)
  | MWasm => Row mm_unord mm_x86 mm_x86 mm_imum
  end.
(** float16: builtins/util.m4 6264-6283 and generic.ispc 865-868; double on Xe: target-xe.ll 246-268. *)
Definition mm_half : minmax := mm_x86.
Definition mm_xe_double : minmax := mm_x86.

(** stdlib/stdlib.ispc 2811-2835: clamp(v, low, high) is min(max(v, low), high). *)
Definition clamp (mm : minmax) (F : fmt) (v low high : Z) : Z := fst mm F (snd mm F v low) high.

(** An exact trunc (the instructions roundss/roundps and llvm.trunc). *)
Definition ftrunc (F : fmt) (x : Z) : Z :=
  match decode F x with
  | S754_finite s m e =>
      if 0 <=? e then x
      else encode F (match Zpos m / 2 ^ (- e) with 0 => S754_zero s | q => binary_normalize (prec F) (emx F) (if s then - q else q) 0 s end)
  | _ => x
  end.
(** The best rcp there can be: the correctly rounded reciprocal. *)
Definition frcp (F : fmt) (y : Z) : Z := fdiv F (bits_one F) y.

(** stdlib/stdlib.ispc 2454-2487 (float16), 2526-2559 (float), 2598-2631 (double), the uniform versions, for any rcp and trunc. *)
Definition quiet_nan (F : fmt) (neg : bool) : Z := Z.lor (encode F S754_nan) (if neg then 2 ^ (width F - 1) else 0).
Definition fmod (F : fmt) (rcp trunc : Z -> Z) (x y : Z) : Z :=
  if isnan F x || isnan F y || feq F y 0 then quiet_nan F (negb (signbits F x =? 0))
  else if isinf F y then x
  else if isinf F x then quiet_nan F (negb (signbits F x =? 0))
  else if feq F x 0 then x
  else fsub F x (fmul F (trunc (fmul F x (rcp y))) y).
(** 2420-2452, 2492-2524, 2564-2596, the varying versions: a list of the active lanes.  nan_bits is uniform: it is shared by the lanes that
    run the block and gets the sign bit if one of them has a negative x. *)
Definition fmod_varying (F : fmt) (rcp trunc : Z -> Z) (lanes : list (Z * Z)) : list Z :=
  let bad1 '(x, y) := isnan F x || isnan F y || feq F y 0 in
  let bad2 '(x, y) := negb (bad1 (x, y)) && negb (isinf F y) && isinf F x in
  let neg '((x, y) : Z * Z) := negb (signbits F x =? 0) in
  let nan1 := quiet_nan F (existsb (fun l => bad1 l && neg l) lanes) in
  let nan2 := quiet_nan F (existsb (fun l => bad2 l && neg l) lanes) in
  map (fun '(x, y) =>
    if bad1 (x, y) then nan1 else if bad2 (x, y) then nan2 else fmod F rcp trunc x y) lanes.
