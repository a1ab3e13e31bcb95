(** Software half/float conversions of stdlib/stdlib.ispc (the branches taken when
    [__have_native_half_converts] is false), pseudo-random numbers and sRGB conversions.
    Floats are bit patterns (FpModel.v); halves are 16-bit patterns. *)
From Coq Require Import ZArith List Bool SpecFloat.
From Verif Require Import Bits FpModel.
Import ListNotations.
Local Open Scope Z_scope.

(** ** half -> float *)

(* stdlib/stdlib.ispc:6633-6655 half_to_float(uniform unsigned int16); int32 values are kept as their
   32-bit patterns *)
Definition half_to_float_uniform (h : Z) : Z :=
  let shifted_exp := 31744 * 2 ^ 13 in
  let o := Z.land h 32767 * 2 ^ 13 in
  let exp := Z.land shifted_exp o in
  let o := wrapu 32 (o + (127 - 15) * 2 ^ 23) in
  let o :=
    if exp =? shifted_exp then wrapu 32 (o + (128 - 16) * 2 ^ 23)
    else if exp =? 0 then fsub32 (wrapu 32 (o + 2 ^ 23)) (113 * 2 ^ 23)
    else o in
  Z.lor o (wrapu 32 (Z.land h 32768 * 2 ^ 16)).

(* stdlib/stdlib.ispc:6658-6678 half_to_float(unsigned int16), one instance; every value is computed and
   the result selected *)
Definition half_to_float_varying (h : Z) : Z :=
  let shifted_exp := 31744 * 2 ^ 13 in
  let o := Z.land h 32767 * 2 ^ 13 in
  let exp := Z.land shifted_exp o in
  let o := wrapu 32 (o + (127 - 15) * 2 ^ 23) in
  let infnan_val := wrapu 32 (o + (128 - 16) * 2 ^ 23) in
  let zerodenorm_val := fsub32 (wrapu 32 (o + 2 ^ 23)) (113 * 2 ^ 23) in
  let reg_val := if exp =? 0 then zerodenorm_val else o in
  let sign_bit := wrapu 32 (Z.land h 32768 * 2 ^ 16) in
  Z.lor (if exp =? shifted_exp then infnan_val else reg_val) sign_bit.

(* stdlib/stdlib.ispc:6783-6797 and 6799-6811 half_to_float_fast, both versions *)
Definition half_to_float_fast (h : Z) : Z :=
  let xs := wrapu 32 (Z.land h 32768 * 2 ^ 16) in
  let xem := wrapu 32 (Z.land h 32767 * 2 ^ 13) in
  Z.lor xs (wrapu 32 (xem + 939524096)) (* 0x38000000 *).

(** ** float -> half *)

Definition round_mask : Z := 2 ^ 32 - 1 - 4095. (* ~0xffful *)
Definition sra (x n : Z) : Z := x / 2 ^ n. (* arithmetic shift right of a signed value *)

(* stdlib/stdlib.ispc:6680-6721 float_to_half(uniform float) *)
Definition float_to_half_uniform (f : Z) : Z :=
  let sign := Z.land f (2 ^ 31) in
  let fint := Z.lxor f sign in
  let f32infty := 255 * 2 ^ 23 in
  let o := if f32infty <? fint then 32256 else 31744 in
  let magic := 15 * 2 ^ 23 in
  let f16infty := 31 * 2 ^ 23 in
  let fint2 := wraps 32 (fmul32 (Z.land fint round_mask) magic - round_mask) in
  let fint2 := if f16infty <? fint2 then f16infty else fint2 in
  let o := if fint <? f32infty then sra fint2 13 else o in
  wrapu 16 (Z.lor o (sra (wraps 32 sign) 16)).

(* stdlib/stdlib.ispc:6723-6782 float_to_half(float), one instance; [fmin] is the target's min *)
Definition float_to_half_varying (fmin : Z -> Z -> Z) (f : Z) : Z :=
  let sign := Z.land f (2 ^ 31) in
  let fint := Z.lxor f sign in
  let f32infty := 255 * 2 ^ 23 in
  let o := if f32infty <? fint then 32256 else 31744 in
  let magic := 15 * 2 ^ 23 in
  let fscale := fmul32 (Z.land fint round_mask) magic in
  let fscale := fmin fscale (31 * 2 ^ 23 - 4096) in
  let fint2 := wraps 32 (fscale - round_mask) in
  let o := if fint <? f32infty then sra fint2 13 else o in
  wrapu 16 (Z.lor o (sra (wraps 32 sign) 16)).

(* stdlib/stdlib.ispc:6813-6835 and 6837-6859 float_to_half_fast, both versions *)
Definition float_to_half_fast (f : Z) : Z :=
  let xs := Z.land f (2 ^ 31) in
  let xe := Z.land f (255 * 2 ^ 23) in
  let xm := Z.land f (2 ^ 23 - 1) in
  let hs := xs / 2 ^ 16 in
  let hes := xe / 2 ^ 23 - 127 + 15 in
  let he := wrapu 32 (hes * 2 ^ 10) in
  let hm := xm / 2 ^ 13 in
  let ret := Z.lor (Z.lor hs he) hm in
  let ret := if Z.land xm 4096 =? 0 then ret else wrapu 32 (ret + 1) in
  wrapu 16 ret.

(* stdlib/stdlib.ispc:6861-6870 __truncdfhf2 converts double to float first; not modelled further *)

(** ** RNG *)

Record rng := Rng { z1 : Z; z2 : Z; z3 : Z; z4 : Z }.

Definition shl32 (x n : Z) : Z := wrapu 32 (x * 2 ^ n).
Definition shr32 (x n : Z) : Z := x / 2 ^ n.

(* stdlib/stdlib.ispc:7005-7031 random, uniform and varying (one instance): new state and result *)
Definition random (s : rng) : rng * Z :=
  let b := shr32 (Z.lxor (shl32 (z1 s) 6) (z1 s)) 13 in
  let z1' := Z.lxor (shl32 (Z.land (z1 s) 4294967294) 18) b in
  let b := shr32 (Z.lxor (shl32 (z2 s) 2) (z2 s)) 27 in
  let z2' := Z.lxor (shl32 (Z.land (z2 s) 4294967288) 2) b in
  let b := shr32 (Z.lxor (shl32 (z3 s) 13) (z3 s)) 21 in
  let z3' := Z.lxor (shl32 (Z.land (z3 s) 4294967280) 7) b in
  let b := shr32 (Z.lxor (shl32 (z4 s) 3) (z4 s)) 12 in
  let z4' := Z.lxor (shl32 (Z.land (z4 s) 4294967168) 13) b in
  (Rng z1' z2' z3' z4', Z.lxor (Z.lxor (Z.lxor z1' z2') z3') z4').

(* stdlib/stdlib.ispc:7033-7043 frandom *)
Definition frandom (s : rng) : rng * Z :=
  let '(s', irand) := random s in
  let irand := Z.land irand (2 ^ 23 - 1) in
  (s', fsub32 (Z.lor (127 * 2 ^ 23) irand) (127 * 2 ^ 23)).

(* stdlib/stdlib.ispc:7045-7059 seed_rng *)
Definition seed_rng (seed : Z) : rng :=
  Rng seed
      (Z.lxor seed 3203395597) (* 0xbeeff00d *)
      (Z.lor (shl32 (Z.land seed 65535) 16) (shr32 seed 16))
      (Z.lor (Z.lor (Z.lor (shl32 (Z.land seed 255) 24) (shl32 (Z.land seed 65280) 8))
                    (shr32 (Z.land seed 16711680) 8))
             (shr32 (Z.land seed 4278190080) 24)).

(** ** sRGB *)

(* stdlib/stdlib.ispc:6901-6914 (and 6935-6948) table *)
Definition srgb_table : list Z := [
  7536653; 7995405; 8388621; 8847373; 9240589; 9699341; 10092557; 10551309;
  10944538; 11796506; 12648474; 13500442; 14286874; 15138842; 15990810; 16842778;
  17694771; 19398707; 21037107; 22741043; 24444979; 26148915; 27787315; 29491251;
  31195239; 34537575; 37945447; 41287783; 44695655; 48037991; 51445863; 54788199;
  58196174; 64946382; 71696590; 78446798; 85197006; 91947205; 98369724; 104530101;
  110559576; 121766210; 132317488; 142278944; 151716114; 160694534; 169279740; 177537266;
  185532875; 200540590; 214630805; 227869056; 240517486; 252510558; 263979344; 274923843;
  285672036; 305660478; 324469277; 342229505; 359006697; 374997459; 390332864; 405012911;
  419300145; 446038782; 471139026; 494797485; 517210765; 538575472; 559022678; 578617920;
  597623875; 633340926; 666829764; 698418066; 728367975; 756876097; 784204575; 810353408;
  835782064; 883426645; 928122119; 970261701; 1010238603; 1048314968; 1084752938; 1119683585;
  1153566616; 1217267486; 1276905142; 1333134941; 1386546704; 1437337036; 1485964687; 1532560729;
  1577847331; 1662781824; 1742407926; 1817512063; 1888749592; 1956644797; 2021459820; 2083718947].

(* stdlib/stdlib.ispc:6900-6964 float_to_srgb8, both versions; [fmax]/[fmin] are the target's.  [None] is an
   access outside the table. *)
Definition float_to_srgb8 (fmax fmin : Z -> Z -> Z) (inval : Z) : option Z :=
  let near_zero := 956301312 (* 0x39000000 *) in
  let almost_one := 1065353215 (* 0x3f7fffff *) in
  let inval := fmax inval near_zero in
  let inval := fmin inval almost_one in
  match nth_error srgb_table (Z.to_nat (shr32 (wrapu 32 (inval - 956301312)) 20)) with
  | None => None
  | Some tab =>
      let bias := shl32 (shr32 tab 16) 9 in
      let scale := Z.land tab 65535 in
      let t := Z.land (shr32 inval 12) 255 in
      Some (shr32 (wrapu 32 (bias + wrapu 32 (scale * t))) 16)
  end.

(* stdlib/stdlib.ispc:6978-7000 srgb8_to_float, both versions; [madd a b c] is [a * b + c], with one
   rounding or two depending on whether the back end contracts it.  The decimal literals are given as the
   bit patterns of the nearest singles. *)
Definition srgb8_to_float (madd : Z -> Z -> Z -> Z) (inval : Z) : Z :=
  let x := i32_to_f32 (Z.min (Z.max inval 0) 255) in
  let r := 703345369 in            (* 1.0489326014e-13 *)
  let r := madd r x 2931677286 in  (* - 8.6331650162e-11 *)
  let r := madd r x 859301098 in   (* 4.2816203915e-8 *)
  let r := madd r x 922932377 in   (* 7.7981030699e-6 *)
  let r := madd r x 957082022 in   (* 1.3343113823e-4 *)
  let r := madd r x 979788418 in   (* 8.7884825188e-4 *)
  let scale := fdiv32 (fdiv32 (127 * 2 ^ 23) (i32_to_f32 255)) 1095678034 (* 12.92 *) in
  if flt32 x 1092946231 (* 10.31475 *) then fmul32 x scale else r.
