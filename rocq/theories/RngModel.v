(** The pseudo-random numbers of the standard library: stdlib/stdlib.ispc:7005-7059 and the structure
    RNGState of stdlib/include/core.isph:395-397.

    Words are unsigned 32-bit numbers. *)
From Coq Require Import ZArith List Bool.
Import ListNotations.
Local Open Scope Z_scope.

(* stdlib/include/core.isph:395-397 *)
Record rng : Type := { z1 : Z; z2 : Z; z3 : Z; z4 : Z }.

(* Shifts of unsigned int32. *)
Definition shl32 (x n : Z) : Z := Z.shiftl x n mod 2 ^ 32.
Definition shr32 (x n : Z) : Z := Z.shiftr x n.

(* stdlib.ispc:7008-7015, the two statements for one word:
   b = ((z << q) ^ z) >> r;  z = ((z & keep) << s) ^ b; *)
Definition word_step (q r keep s : Z) (z : Z) : Z :=
  let b := shr32 (Z.lxor (shl32 z q) z) r in
  Z.lxor (shl32 (Z.land z keep) s) b.

Definition step1 : Z -> Z := word_step 6 13 4294967294 18.
Definition step2 : Z -> Z := word_step 2 27 4294967288 2.
Definition step3 : Z -> Z := word_step 13 21 4294967280 7.
Definition step4 : Z -> Z := word_step 3 12 4294967168 13.

(* stdlib.ispc:7005-7031 random, uniform: the new state and the number. *)
Definition random (st : rng) : rng * Z :=
  let st' := {| z1 := step1 (z1 st); z2 := step2 (z2 st); z3 := step3 (z3 st); z4 := step4 (z4 st) |} in
  (st', Z.lxor (Z.lxor (Z.lxor (z1 st') (z2 st')) (z3 st')) (z4 st')).

(* stdlib.ispc:7045-7059 seed_rng *)
Definition seed_rng (seed : Z) : rng :=
  {| z1 := seed;
     z2 := Z.lxor seed 3203395597;
     z3 := Z.lor (shl32 (Z.land seed 65535) 16) (shr32 seed 16);
     z4 := Z.lor (Z.lor (Z.lor (shl32 (Z.land seed 255) 24) (shl32 (Z.land seed 65280) 8))
                        (shr32 (Z.land seed 16711680) 8))
                 (shr32 (Z.land seed 4278190080) 24) |}.

(* A finite, positive, normal binary32 number with the given bits, in units of 2^-149. *)
Definition float_units (bits : Z) : Z :=
  (2 ^ 23 + bits mod 2 ^ 23) * 2 ^ (Z.shiftr bits 23 mod 256 - 1).

(* stdlib.ispc:7033-7043 frandom: floatbits(0x3F800000 | irand) - 1.0f, in units of 2^-149.  The
   difference is taken exactly: both numbers are in [1, 2), where subtraction does not round. *)
Definition frandom (st : rng) : rng * Z :=
  let '(st', n) := random st in
  let irand := Z.land n (Z.shiftl 1 23 - 1) in
  (st', float_units (Z.lor 1065353216 irand) - float_units 1065353216).

(* The numbers of n successive calls. *)
Fixpoint numbers (n : nat) (st : rng) : list Z :=
  match n with
  | O => []
  | S k => let '(st', x) := random st in x :: numbers k st'
  end.

(* The state after n calls. *)
Fixpoint after (n : nat) (st : rng) : rng :=
  match n with O => st | S k => after k (fst (random st)) end.

(** ** The varying functions *)

(* A masked store to one member of a varying structure. *)
Definition masked (mask : nat -> bool) (new old : nat -> Z) : nat -> Z :=
  fun l => if mask l then new l else old l.

Record vrng : Type := { v1 : nat -> Z; v2 : nat -> Z; v3 : nat -> Z; v4 : nat -> Z }.

(* stdlib.ispc:7005-7017: the members are stored under the mask and read again for the result. *)
Definition vrandom (mask : nat -> bool) (st : vrng) : vrng * (nat -> Z) :=
  let a := masked mask (fun l => step1 (v1 st l)) (v1 st) in
  let b := masked mask (fun l => step2 (v2 st l)) (v2 st) in
  let c := masked mask (fun l => step3 (v3 st l)) (v3 st) in
  let d := masked mask (fun l => step4 (v4 st l)) (v4 st) in
  ({| v1 := a; v2 := b; v3 := c; v4 := d |},
   fun l => Z.lxor (Z.lxor (Z.lxor (a l) (b l)) (c l)) (d l)).

(* stdlib.ispc:7045-7051 *)
Definition vseed_rng (mask : nat -> bool) (seed : nat -> Z) (old : vrng) : vrng :=
  {| v1 := masked mask (fun l => z1 (seed_rng (seed l))) (v1 old);
     v2 := masked mask (fun l => z2 (seed_rng (seed l))) (v2 old);
     v3 := masked mask (fun l => z3 (seed_rng (seed l))) (v3 old);
     v4 := masked mask (fun l => z4 (seed_rng (seed l))) (v4 old) |}.

(* The varying functions called with a mask of their own each time. *)
Fixpoint vrun (masks : list (nat -> bool)) (st : vrng) : list (nat -> Z) :=
  match masks with
  | [] => []
  | m :: rest => let '(st', x) := vrandom m st in x :: vrun rest st'
  end.
