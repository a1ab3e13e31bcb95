(** Cross-lane operations of the standard library, as written in builtins/generic.ispc,
    builtins/util.m4 and stdlib/stdlib.ispc.

    A varying value is a function from lane number to value; [W] is the gang size
    (TARGET_WIDTH).  A mask is a varying boolean: ispc keeps every mask lane all-ones or all-zeros.
    Memory is an array of elements indexed by [Z] (element size and address arithmetic are
    abstracted: element k behind pointer p is [p + k]).
    [None] is LLVM poison / an access outside the object it was computed from. *)
From Coq Require Import ZArith List Bool SpecFloat.
From Verif Require Import Bits LanesTables.
Import ListNotations.
Local Open Scope Z_scope.

Definition gang (A : Type) : Type := nat -> A.

Definition lanes (W : nat) : list nat := seq 0 W.

(* builtins/generic.ispc:49-70 __insert: replaces one lane. *)
Definition insert {A} (v : gang A) (i : nat) (x : A) : gang A :=
  fun l => if Nat.eqb l i then x else v l.

(* builtins/generic.ispc __extract (llvm extractelement): poison when the index is outside the
   vector. *)
Definition extract {A} (W : nat) (v : gang A) (i : Z) : option A :=
  if (0 <=? i) && (i <? Z.of_nat W) then Some (v (Z.to_nat i)) else None.

(** ** Masks as integers *)

(* builtins/generic.ispc:1613,1620 __cast_mask_to_i64 / __movmsk = llvm.ispc.packmask: bit i of the
   result is lane i. *)
Definition movmsk (W : nat) (m : gang bool) : Z :=
  fold_left (fun acc i => Z.lor acc (Z.shiftl (b2z (m i)) (Z.of_nat i))) (lanes W) 0.

(* builtins/generic.ispc:1621-1623 *)
Definition b_any (W : nat) (m : gang bool) : bool := negb (movmsk W m =? 0).
Definition b_all (W : nat) (m : gang bool) : bool :=
  movmsk W m =? Z.shiftr (2 ^ 64 - 1) (64 - Z.of_nat W).
Definition b_none (W : nat) (m : gang bool) : bool := movmsk W m =? 0.

(* llvm.ctpop.i64 and llvm.cttz.i64(_, false): count of the set bits, index of the lowest set bit
   (64 when there is none). *)
Definition ctpop64 (x : Z) : Z :=
  fold_left (fun acc i => acc + b2z (Z.testbit x (Z.of_nat i))) (seq 0 64) 0.
Fixpoint cttz_from (n : nat) (x : Z) (i : Z) : Z :=
  match n with
  | O => i
  | S n => if Z.testbit x i then i else cttz_from n x (i + 1)
  end.
Definition cttz64 (x : Z) : Z := cttz_from 64 x 0.

(* stdlib/stdlib.ispc:762-796 any, all, none; 806-813 popcnt(bool); 815 lanemask; 817-823 packmask.
   The ISPC_MASK_BITS variants differ only in how the bool is widened to a mask. *)
Definition any (W : nat) (mask v : gang bool) : bool := b_any W (fun l => v l && mask l).
Definition all (W : nat) (mask v : gang bool) : bool := b_all W (fun l => v l || negb (mask l)).
Definition none (W : nat) (mask v : gang bool) : bool := b_none W (fun l => v l && mask l).
Definition popcnt_bool (W : nat) (mask v : gang bool) : Z :=
  ctpop64 (movmsk W (fun l => v l && mask l)).
Definition lanemask (W : nat) (mask : gang bool) : Z := movmsk W mask.
Definition packmask (W : nat) (mask v : gang bool) : Z := movmsk W (fun l => v l && mask l).

(** ** Reductions *)

(* builtins/generic.ispc:781-815 llvm.vector.reduce.{add,smin,smax,umin,umax} on iN lanes.
   Simplification: the vector is reduced from lane 0 upwards; LLVM leaves the order of the integer
   reductions open because it cannot be observed. *)
Definition vreduce {A} (op : A -> A -> A) (W : nat) (v : gang A) : A :=
  match W with
  | O => v O
  | S k => fold_left (fun acc i => op acc (v i)) (seq 1 k) (v O)
  end.

(* stdlib/stdlib.ispc:1497-1529 reduce_add(intN) / reduce_add(unsigned intN) *)
Definition reduce_add_s (n : Z) (W : nat) (mask : gang bool) (x : gang Z) : Z :=
  vreduce (fun a b => wraps n (a + b)) W (fun l => if mask l then x l else 0).
Definition reduce_add_u (n : Z) (W : nat) (mask : gang bool) (x : gang Z) : Z :=
  vreduce (fun a b => wrapu n (a + b)) W (fun l => if mask l then x l else 0).

(* stdlib/stdlib.ispc:1568-1614 reduce_min(intN / unsigned intN) with INTn_MAX, UINTn_MAX *)
Definition reduce_min_s (n : Z) (W : nat) (mask : gang bool) (x : gang Z) : Z :=
  vreduce Z.min W (fun l => if mask l then x l else 2 ^ (n - 1) - 1).
Definition reduce_min_u (n : Z) (W : nat) (mask : gang bool) (x : gang Z) : Z :=
  vreduce Z.min W (fun l => if mask l then x l else 2 ^ n - 1).

(* stdlib/stdlib.ispc:1653-1699 reduce_max(intN / unsigned intN) with INTn_MIN, 0 *)
Definition reduce_max_s (n : Z) (W : nat) (mask : gang bool) (x : gang Z) : Z :=
  vreduce Z.max W (fun l => if mask l then x l else - 2 ^ (n - 1)).
Definition reduce_max_u (n : Z) (W : nat) (mask : gang bool) (x : gang Z) : Z :=
  vreduce Z.max W (fun l => if mask l then x l else 0).

(** Floating point lanes are IEEE values in Coq's [spec_float]. *)
Definition fisnan (x : spec_float) : bool := match x with S754_nan => true | _ => false end.

(* llvm.vector.reduce.fmin/fmax: minnum/maxnum, which return the other operand when one is a NaN
   (LLVM language reference).  For two zeros either may be returned; here the first. *)
Definition minnum (a b : spec_float) : spec_float :=
  if fisnan a then b else if fisnan b then a else
  match SFcompare a b with Some Gt => b | _ => a end.
Definition maxnum (a b : spec_float) : spec_float :=
  if fisnan a then b else if fisnan b then a else
  match SFcompare a b with Some Lt => b | _ => a end.

(* stdlib/stdlib.ispc:1534-1566 reduce_min(float16/float/double): off lanes are +infinity;
   1619-1651 reduce_max: -infinity.  builtins/generic.ispc:763-777. *)
Definition reduce_min_f (W : nat) (mask : gang bool) (x : gang spec_float) : spec_float :=
  vreduce minnum W (fun l => if mask l then x l else S754_infinity false).
Definition reduce_max_f (W : nat) (mask : gang bool) (x : gang spec_float) : spec_float :=
  vreduce maxnum W (fun l => if mask l then x l else S754_infinity true).

(* stdlib/stdlib.ispc:1482-1495 reduce_add(float16/float/double): off lanes are +0;
   builtins/generic.ispc:763,768,773: llvm.vector.reduce.fadd(-0.0, x), which without the reassoc
   flag adds the lanes in order to the start value. *)
Definition reduce_add_f (prec emax : Z) (W : nat) (mask : gang bool) (x : gang spec_float) : spec_float :=
  fold_left (fun acc i => SFadd prec emax acc (if mask i then x i else S754_zero false))
    (lanes W) (S754_zero true).

(** *** reduce_equal *)

(** Result of a builtin that stores through its pointer argument only when it succeeds. *)
Inductive req (A : Type) : Type :=
| Equal (v : A)       (* returns true after storing v *)
| NotEqual            (* returns false, stores nothing *)
| Poison.             (* reads outside the vector / branches on poison *)
Arguments Equal {A} v. Arguments NotEqual {A}. Arguments Poison {A}.

(* builtins/generic.ispc:817-828 __reduce_equal.  [eqb] is ispc's == on the element type. *)
Definition reduce_equal {A} (eqb : A -> A -> bool) (W : nat) (mask : gang bool) (x : gang A) : req A :=
  match extract W x (cttz64 (movmsk W mask)) with
  | None => Poison
  | Some first_val =>
      if b_all W (fun l => eqb (x l) first_val || negb (mask l)) then Equal first_val else NotEqual
  end.

(* builtins/util.m4:6986-7060 reduce_equal_aux: blend the first active value into the off lanes,
   then compare each element with its neighbour (32-bit elements: all W neighbours cyclically;
   other sizes: the W-1 adjacent pairs). *)
Definition reduce_equal_m4 {A} (eqb : A -> A -> bool) (cyclic : bool) (W : nat) (mask : gang bool)
    (x : gang A) : req A :=
  let mm := movmsk W mask in
  let vec :=
    if mm =? Z.shiftr (2 ^ 64 - 1) (64 - Z.of_nat W) then Some x
    else match extract W x (cttz64 mm) with
         | None => None
         | Some base => Some (fun l => if mask l then x l else base)
         end in
  match vec with
  | None => Poison
  | Some vec =>
      let alleq :=
        if cyclic then b_all W (fun l => eqb (vec l) (vec (Nat.modulo (l + 1) W)))
        else forallb (fun i => eqb (vec i) (vec (i + 1)%nat)) (seq 0 (W - 1)) in
      if alleq then Equal (vec O) else NotEqual
  end.

(* stdlib/stdlib.ispc:1704-1709: reduce_equal(v) passes the address of the one-byte variable
   [unusedValue] to the builtin, which stores [size] bytes through it when the lanes agree.
   [None]: the store leaves the object. *)
Definition reduce_equal_novalue {A} (size : Z) (r : req A) : option bool :=
  match r with
  | Equal _ => if size <=? 1 then Some true else None
  | NotEqual => Some false
  | Poison => None
  end.

(** ** Exclusive scans *)

(* builtins/generic.ispc:1016-1023 / 1031-1038 / 1043-1050 __exclusive_scan_{add,and,or}: the
   initial vector and the value of the off lanes are the identity [id]. *)
Definition exclusive_scan {A} (op : A -> A -> A) (id : A) (W : nat) (mask : gang bool) (v : gang A) : gang A :=
  let val := fun l => if mask l then v l else id in
  fold_left (fun res i => insert res i (op (val (i - 1)%nat) (res (i - 1)%nat)))
    (seq 1 (W - 1)) (fun _ => id).

Definition exclusive_scan_add (n : Z) := exclusive_scan (fun a b => wraps n (a + b)) 0.
Definition exclusive_scan_and := exclusive_scan Z.land (-1).
Definition exclusive_scan_or := exclusive_scan Z.lor 0.
Definition exclusive_scan_add_f (prec emax : Z) :=
  exclusive_scan (fun a b => SFadd prec emax a b) (S754_zero false).

(* builtins/util.m4:7083-7127 exclusive_scan: s_1 = id op v_0, s_i = s_{i-1} op v_{i-1}. *)
Fixpoint scan_m4_upto {A} (op : A -> A -> A) (id : A) (val : gang A) (i : nat) : A :=
  match i with
  | O => id
  | S i => op (scan_m4_upto op id val i) (val i)
  end.
Definition exclusive_scan_m4 {A} (op : A -> A -> A) (id : A) (W : nat) (mask : gang bool) (v : gang A) : gang A :=
  fun l => scan_m4_upto op id (fun i => if mask i then v i else id) l.

(** ** Lane permutations *)

(* builtins/generic.ispc:1006 __broadcast; builtins/util.m4:2265-2271 *)
Definition broadcast {A} (W : nat) (v : gang A) (i : Z) : option (gang A) :=
  match extract W v i with
  | Some x => Some (fun _ => x)
  | None => None
  end.

(* builtins/generic.ispc __concat: 2W elements. *)
Definition concat {A} (W : nat) (a b : gang A) : gang A :=
  fun l => if Nat.ltb l W then a l else b (l - W)%nat.

(* builtins/generic.ispc:1057-1062 __rotate; builtins/util.m4:2290-2307 (not_const) *)
Definition rotate_mem {A} (W : nat) (v : gang A) (i : Z) : gang (option A) :=
  let dbl := concat W v v in
  let start := Z.land i (Z.of_nat W - 1) in
  fun l => extract (2 * W) dbl (start + Z.of_nat l).

(* builtins/util.m4:2277-2288 (is_const): extract lane (i + l) & (W-1); the addition is i32. *)
Definition rotate_const {A} (W : nat) (v : gang A) (i : Z) : gang (option A) :=
  fun l => extract W v (Z.land (wraps 32 (i + Z.of_nat l)) (Z.of_nat W - 1)).

(* builtins/generic.ispc:1143-1150 __shuffle: each lane is an extractelement (poison when its index
   is outside) inserted into the result. *)
Definition shuffle {A} (W : nat) (v : gang A) (perm : gang Z) : gang (option A) :=
  fun l => extract W v (perm l).

(* builtins/generic.ispc:1164-1172 __shuffle2 *)
Definition shuffle2 {A} (W : nat) (v0 v1 : gang A) (perm : gang Z) : gang (option A) :=
  fun l => extract (2 * W) (concat W v0 v1) (perm l).

(* stdlib/stdlib.ispc:98-407 __rotate_via_shuffle *)
Definition rotate_masks (W : nat) : list (list Z) :=
  match W with
  | 4%nat => rotate_masks_4
  | 8%nat => rotate_masks_8
  | 16%nat => rotate_masks_16
  | 32%nat => rotate_masks_32
  | 64%nat => rotate_masks_64
  | _ => []
  end.
Definition rotate_via_shuffle {A} (W : nat) (v : gang A) (i : Z) : gang (option A) :=
  let row := nth (Z.to_nat (Z.land i (Z.of_nat W - 1))) (rotate_masks W) [] in
  shuffle W v (fun l => nth l row (-1)).

(* builtins/generic.ispc:1072-1078 __shift; builtins/util.m4:2310-2327 vector_shift: W elements read
   from a 3W element array { 0, v, 0 } at position i + W.  The i32 addition may wrap. *)
Definition shift_mem {A} (zero : A) (W : nat) (v : gang A) (i : Z) : gang (option A) :=
  let trp := fun l => if Nat.ltb l W then zero
                      else if Nat.ltb l (2 * W) then v (l - W)%nat else zero in
  let start := wraps 32 (i + Z.of_nat W) in
  fun l => extract (3 * W) trp (start + Z.of_nat l).

(* stdlib/stdlib.ispc:496-507 __shift_via_shuffle.  select() takes the shuffled lane only where the
   index is inside the gang, so a poison lane of the shuffle is dropped. *)
Definition shift_via_shuffle {A} (zero : A) (W : nat) (v : gang A) (i : Z) : gang (option A) :=
  let src := fun l : nat => wraps 32 (Z.of_nat l + i) in
  let shuffled := shuffle W v src in
  fun l => if (0 <=? src l) && (src l <? Z.of_nat W) then shuffled l else Some zero.

(** ** Packed stores and loads *)

Definition memory := Z -> Z.
Definition mset (m : memory) (a x : Z) : memory := fun b => if b =? a then x else m b.

(* llvm.masked.compressstore: the active lanes, lowest first, to consecutive elements. *)
Definition compressstore (W : nat) (mask : gang bool) (v : gang Z) (p : Z) (m : memory) : memory :=
  fst (fold_left (fun st i => let '(m, k) := st in
                              if mask i then (mset m (p + k) (v i), k + 1) else (m, k))
         (lanes W) (m, 0)).

(* llvm.masked.expandload: consecutive elements to the active lanes, passthru elsewhere. *)
Definition expandload (W : nat) (mask : gang bool) (passthru : gang Z) (p : Z) (m : memory) : gang Z :=
  fst (fold_left (fun st i => let '(r, k) := st in
                              if mask i then (insert r i (m (p + k)), k + 1) else (r, k))
         (lanes W) (passthru, 0)).

(* builtins/generic.ispc:2447-2504, builtins/util.m4:6836-6844 __packed_store_active; the mask handed
   over by stdlib.ispc:1804-1968 is __mask. *)
Definition packed_store_active (W : nat) (mask : gang bool) (v : gang Z) (p : Z) (m : memory) : memory * Z :=
  (compressstore W mask v p m, ctpop64 (movmsk W mask)).

(* stdlib/stdlib.ispc:1877-1879, 1931-1933 packed_store_active(bool active, a, vals): the mask handed
   over is [active] itself. *)
Definition packed_store_active_lanes (W : nat) (mask active : gang bool) (v : gang Z) (p : Z) (m : memory)
  : memory * Z := packed_store_active W active v p m.

(* builtins/generic.ispc:2506-2514, builtins/util.m4:6822-6833 *)
Definition packed_load_active (W : nat) (mask : gang bool) (p : Z) (m : memory) (old : gang Z) : gang Z * Z :=
  (expandload W mask old p m, ctpop64 (movmsk W mask)).

(* builtins/util.m4:6888-6934 __packed_store_active2 for mask element size [mb] bits: every lane is
   stored at the running offset, and the offset (an i[mb]) advances by subtracting the mask lane,
   which is all-ones or zero.  [known]: the mask is a compile time constant. *)
Definition packed_store_active2 (mb : Z) (known : bool) (W : nat) (mask : gang bool) (v : gang Z)
    (p : Z) (m : memory) : memory * Z :=
  if known && (movmsk W mask =? Z.shiftr (2 ^ 64 - 1) (64 - Z.of_nat W))
  then (fold_left (fun m i => mset m (p + Z.of_nat i) (v i)) (lanes W) m, Z.of_nat W)
  else fold_left (fun st i => let '(m, off) := st in
                              (mset m (p + off) (v i),
                               wrapu mb (off - (if mask i then 2 ^ mb - 1 else 0))))
         (lanes W) (m, 0).

(** ** Array-of-structures conversions (n = 2, 3, 4 fields) *)

(* builtins/generic.ispc:2533-2546, 2577-2603, 2641-2660 __aos_to_soa{2,4,3}: vector k gets
   ptr[k + i*n] in lane i. *)
Definition aos_to_soa (n : nat) (W : nat) (p : Z) (m : memory) : nat -> gang Z :=
  fun k => fold_left (fun x i => insert x i (m (p + Z.of_nat (k + i * n)))) (lanes W) (fun _ => 0).

(* builtins/generic.ispc:2555-2566, 2620-2632, 2675-2688 __soa_to_aos{2,4,3}, with the redundant
   inner loop of the source. *)
Definition soa_to_aos (n : nat) (W : nat) (v : nat -> gang Z) (p : Z) (m : memory) : memory :=
  fold_left (fun m j =>
    fold_left (fun m (_ : nat) =>
      fold_left (fun m k => mset m (p + Z.of_nat (n * j + k)) (v k j)) (seq 0 n) m)
      (seq 0 n) m)
    (lanes W) m.
