(** Model of the simplification of masked operations:
    /repo/src/llvmutil.cpp (lConstElementsToMask, GetMaskFromValue,
    GetMaskStatusFromValue), /repo/src/opt/InstructionSimplify.cpp,
    IntrinsicsOptPass.cpp, ImproveMemoryOps.cpp (masked loads and stores) and
    ReplaceMaskedMemOps.cpp. *)

From Coq Require Import ZArith List Bool Lia.
From Verif Require Import Bits.
Import ListNotations.
Open Scope Z_scope.

(** Elements of a constant vector: an integer of [w] bits as a number in
    [0, 2^w), a floating-point number of [w] bits as its bit pattern, undef or
    poison, a constant expression. *)
Inductive melt :=
| MInt (w z : Z) | MFloat (w z : Z) | MUndef | MExpr.

(** Mask operands.  A ConstantDataVector is a [MVec] without undef elements and
    constant expressions: the code treats both alike. *)
Inductive mask :=
| MVec (l : list melt)          (* ConstantDataVector, ConstantVector *)
| MZero (n : nat)               (* ConstantAggregateZero *)
| MOther (n : nat).             (* not a constant *)

(** countLeadingOnes() > 0 (llvmutil.cpp 1872). *)
Definition high (c : melt) : bool :=
  match c with
  | MInt w z | MFloat w z => Z.testbit z (w - 1)
  | _ => false
  end.

Definition is_undef (c : melt) : bool := match c with MUndef => true | _ => false end.
Definition is_expr (c : melt) : bool := match c with MExpr => true | _ => false end.

(** The loop of lConstElementsToMask, llvmutil.cpp 1853-1875: (mask,
    undefSetMask), from element [i] on. *)
Fixpoint mask_bits (i : Z) (l : list melt) : Z * Z :=
  match l with
  | [] => (0, 0)
  | c :: l' =>
      let '(m, u) := mask_bits (i + 1) l' in
      if is_undef c then (m, Z.lor u (2 ^ i))
      else (if high c then Z.lor m (2 ^ i) else m, u)
  end.

Definition elements_to_mask (l : list melt) : Z :=
  let '(m, u) := mask_bits 0 l in
  if m =? 0 then m else Z.lor m u.

(** What the compiler finds; [Crash]: an assertion fails (1848). *)
Inductive found_mask := NotConst | Crash | Bits (b : Z).

(** GetMaskFromValue, 1892-1925. *)
Definition get_mask (m : mask) : found_mask :=
  match m with
  | MVec l =>
      if existsb is_expr l then NotConst
      else if (64 <? Z.of_nat (length l)) then Crash else Bits (elements_to_mask l)
  | MZero _ => Bits 0
  | MOther _ => NotConst
  end.

Inductive status := AllOn | AllOff | Mixed | Unknown | Failed.

(** GetMaskStatusFromValue, 1930-1951; [vw]: the width of the target (1-64). *)
Definition mask_status (vw : nat) (m : mask) : status :=
  match get_mask m with
  | NotConst => Unknown
  | Crash => Failed
  | Bits b =>
      if b =? 0 then AllOff
      else if forallb (fun i => Z.testbit b (Z.of_nat i)) (seq 0 vw) then AllOn else Mixed
  end.

(** ** The replacements *)

(** What a masked operation is replaced by. *)
Inductive choice3 := Keep | TakeOn | TakeOff.

Definition by_status (s : status) : choice3 :=
  match s with AllOn => TakeOn | AllOff => TakeOff | _ => Keep end.

(** lSimplifySelect, InstructionSimplify.cpp 52-87 (lSimplifyBoolVec, 12-50,
    never changes anything: it asks whether a trunc is a sext);
    lImproveMaskedStore and lImproveMaskedLoad, ImproveMemoryOps.cpp 1575-1701;
    the AVX masked loads and stores, IntrinsicsOptPass.cpp 120-186. *)
Definition simplify (vw : nat) (m : mask) : choice3 := by_status (mask_status vw m).

(** The blends, IntrinsicsOptPass.cpp 64-104.  [same]: both operands are the
    same value; [u0], [u1]: the first, the second operand is undef.  [TakeOff]:
    the first operand, [TakeOn]: the second one. *)
Definition simplify_blend (vw : nat) (same u0 u1 : bool) (m : mask) : choice3 :=
  if same then TakeOff
  else if u0 then TakeOn
  else if u1 then TakeOff
  else simplify vw m.

(** movmsk of a constant, IntrinsicsOptPass.cpp 105-118 and
    InstructionSimplify.cpp 89-108: the integer that replaces the call, as 32 or
    64 bits. *)
Definition simplify_movmsk (bits : Z) (m : mask) : option Z :=
  match get_mask m with Bits b => Some (wrapu bits b) | _ => None end.

(** ** ReplaceMaskedMemOps.cpp *)

(** lIsPowerOf2, 18. *)
Definition is_pow2 (n : nat) : bool :=
  (0 <? Z.of_nat n) && (Z.land (Z.of_nat n) (Z.of_nat n - 1) =? 0).

Definition is_int (z : Z) (c : melt) : bool :=
  match c with MInt _ x => x =? z | _ => false end.

Definition is_const_int (c : melt) : bool := match c with MInt _ _ => true | _ => false end.

(** The first loop of lCheckMask, 32-43: elements that are not ConstantInts are
    passed over. *)
Fixpoint true_prefix (l : list melt) : nat :=
  match l with
  | [] => 0
  | c :: l' =>
      if is_const_int c then if is_int 1 c then S (true_prefix l') else 0
      else true_prefix l'
  end%nat.

(** The second loop, 45-54. *)
Definition zeros_after (l : list melt) (k : nat) : bool :=
  forallb (fun c => negb (is_const_int c) || is_int 0 c) (skipn (k + 1) l).

(** lCheckMask, 25-63: the length of the part that is on. *)
Definition check_mask (m : mask) : option nat :=
  match m with
  | MVec l =>
      if is_pow2 (length l) then
        let k := true_prefix l in
        if zeros_after l k && (is_pow2 k || Nat.eqb k 3) then Some k else None
      else None
  | _ => None
  end.

Section Merge.
Context {A : Type}.

(** lShrinkVector, 67-76, and lExtractSecondPartOfConstVec, 82-100. *)
Definition shrink (v : list A) (k : nat) : list A := firstn k v.
Definition second_part (v : list A) (k : nat) : list A := skipn k v.

(** lExtendVec3ToVec4, 104-119: the shuffle picks element 0 of the second
    vector. *)
Definition extend3 (v sec : list A) : list A := v ++ firstn 1 sec.

(** The loop of lMaskedMergeVectors, 150-165: [f] bounds the iterations. *)
Fixpoint merge_loop (f : nat) (length N : nat) (first second : list A) : list A :=
  match f with
  | O => first
  | S f' =>
      if Nat.ltb length N
      then merge_loop f' (length * 2) N
             (first ++ shrink (second_part second length) length) second
      else first
  end.

(** lMaskedMergeVectors, 131-168. *)
Definition merge (first second : list A) : list A :=
  let N := length second in
  if Nat.eqb (length first) 3
  then merge_loop N 4 N (extend3 first second) second
  else merge_loop N (length first) N first second.

End Merge.
