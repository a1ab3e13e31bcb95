(** Atomic operations of the standard library on a varying value.

    Memory maps addresses to values of the element type.  Other hardware threads may act on memory
    before any of our atomic accesses; what they do is a list of arbitrary memory updates [wenv], of
    which one is taken before each access.  Ordinary (local) accesses take none.

    Integers of n bits are represented by their signed value; the unsigned variants of the functions
    instantiate the same code on the same bits (stdlib.ispc:3024-3034), except min and max. *)
From Coq Require Import ZArith List Bool SpecFloat.
From Verif Require Import Bits LanesModel ForeachModel.
Import ListNotations.
Local Open Scope Z_scope.

Record world (A : Type) := World { wmem : Z -> A; wenv : list ((Z -> A) -> (Z -> A)) }.
Arguments World {A}. Arguments wmem {A}. Arguments wenv {A}.

Definition mupd {A} (m : Z -> A) (p : Z) (x : A) : Z -> A := fun q => if q =? p then x else m q.

Definition interfere {A} (w : world A) : world A :=
  match wenv w with
  | [] => w
  | f :: t => World (f (wmem w)) t
  end.

(* LLVM atomicrmw <op> ptr, v seq_cst: the old value, memory updated with [f old].
   LLVM cmpxchg is the instance with [f old = if old = cmp then new else old]. *)
Definition atomicrmw {A} (f : A -> A) (p : Z) (w : world A) : world A * A :=
  let w := interfere w in
  (World (mupd (wmem w) p (f (wmem w p))) (wenv w), wmem w p).

(** ** The operations *)

(* LLVM add, sub, and, or, xor, smin, smax on iN (signed representation), xchg *)
Definition op_add (n a b : Z) : Z := wraps n (a + b).
Definition op_sub (n a b : Z) : Z := wraps n (a - b).
Definition op_and (a b : Z) : Z := Z.land a b.
Definition op_or (a b : Z) : Z := Z.lor a b.
Definition op_xor (a b : Z) : Z := Z.lxor a b.
Definition op_xchg {A} (a b : A) : A := b.
Definition op_cmpxchg {A} (eqb : A -> A -> bool) (old cmp new : A) : A :=
  if eqb old cmp then new else old.

(** ** Global atomics, uniform pointer, varying value: integer add, sub, and, or, xor *)

(* the loop of builtins/generic.ispc:2842-2847 (and 2859-2863, ...): [red] and the vector [elt] *)
Definition assoc_loop {A} (op : A -> A -> A) (v : gang A) : nat -> A * gang A -> A * gang A :=
  fun i st => (op (fst st) (v i), insert (snd st) i (fst st)).

(* builtins/generic.ispc:2835-2962 __atomic_{add,sub,and,or,xor}_int{32,64}_global:
   [op] in the reduction, [mop] in the atomicrmw instruction, [rop] in the returned expression. *)
Definition assoc_global {A} (op mop rop : A -> A -> A) (id : A) (W : nat) (mask : gang bool)
    (val : gang A) (p : Z) (w : world A) : world A * gang A :=
  let elt : gang A := fun _ => id in
  let v := fun l => if mask l then val l else elt l in
  let st := fold_left (fun st i => assoc_loop op v i st) (seq 1 (W - 1)) (v O, elt) in
  let '(w', final) := atomicrmw (fun old => mop old (fst st)) p w in
  (w', fun l => rop (snd st l) final).

Definition atomic_add_generic (n : Z) := assoc_global (op_add n) (op_add n) (op_add n) 0.
Definition atomic_sub32_generic := assoc_global (op_sub 32) (op_sub 32) (op_sub 32) 0.
Definition atomic_sub64_generic := assoc_global (op_sub 64) (op_sub 64) (op_add 64) 0.
(* 2900, 2912: the instruction is atomicrmw.sub *)
Definition atomic_and_generic (n : Z) := assoc_global op_and (op_sub n) op_and (-1).
Definition atomic_or_generic := assoc_global op_or op_or op_or 0.
Definition atomic_xor_generic := assoc_global op_xor op_xor op_xor 0.

(* builtins/util.m4:2514-2565 global_atomic_associative(W, op, type, name, id), instantiated at
   6110-6136.  The masking is done with bit operations on a mask of all zeros or all ones. *)
Definition assoc_global_m4 (op : Z -> Z -> Z) (id : Z) (W : nat) (mask : gang bool)
    (val : gang Z) (p : Z) (w : world Z) : world Z * gang Z :=
  let mk := fun l => if mask l then -1 else 0 in
  let valoff := fun l => Z.land (val l) (mk l) in
  let notmask := fun l => Z.lxor (mk l) (-1) in
  let idoff := fun l => Z.land id (notmask l) in
  let valp := fun l => Z.lor (valoff l) (idoff l) in
  let st := fold_left (fun st i => assoc_loop op valp i st) (seq 1 (W - 1)) (valp O, fun _ => id) in
  let '(w', final) := atomicrmw (fun old => op old (fst st)) p w in
  (w', fun l => op final (snd st l)).

Definition atomic_add_m4 (n : Z) := assoc_global_m4 (op_add n) 0.
Definition atomic_sub_m4 (n : Z) := assoc_global_m4 (op_sub n) 0.
Definition atomic_and_m4 := assoc_global_m4 op_and (-1).
Definition atomic_or_m4 := assoc_global_m4 op_or 0.
Definition atomic_xor_m4 := assoc_global_m4 op_xor 0.

(** ** Global min and max *)

(* stdlib/stdlib.ispc:2981-2988 DEFINE_ATOMIC_MINMAX_OP: reduce over the running instances, then one
   uniform atomic whose old value is returned to every instance.  [red] is reduce_min or
   reduce_max of the type (LanesModel), [op] the atomicrmw operation.  [None]: not assigned. *)
Definition atomic_minmax (red : nat -> gang bool -> gang Z -> Z) (op : Z -> Z -> Z) (W : nat)
    (mask : gang bool) (val : gang Z) (p : Z) (w : world Z) : world Z * gang (option Z) :=
  let oneval := red W mask val in
  if negb (lanemask W mask =? 0) then
    let '(w', old) := atomicrmw (fun m => op m oneval) p w in
    (w', fun l => if mask l then Some old else None)
  else (w, fun _ => None).

(** ** Global swap *)

(* stdlib/stdlib.ispc:2935-2966 DEFINE_ATOMIC_SWAP.  [ret] is indexed by the array index; every
   element is a gang, written under the mask, and the result reads ret[programIndex].
   lastSwap is uninitialised until the first active instance is found: [None]. *)
Record swapst (A : Type) := SwapSt {
  sw_world : world A; sw_mem : option A; sw_last : option nat; sw_ret : nat -> gang (option A) }.
Arguments SwapSt {A}. Arguments sw_world {A}. Arguments sw_mem {A}. Arguments sw_last {A}. Arguments sw_ret {A}.

Definition lane_on (mask : Z) (i : nat) : bool := negb (Z.land mask (Z.shiftl 1 (Z.of_nat i)) =? 0).

(* assignment ret[j] = x of a uniform value, under the mask *)
Definition set_ret {A} (mask : gang bool) (j : nat) (x : option A) (ret : nat -> gang (option A)) :=
  fun k l => if Nat.eqb k j && mask l then x else ret k l.

(* first loop: from index [i], [n] more indices; returns the index at which it stopped *)
Fixpoint swap_first {A} (mm : Z) (value : gang A) (p : Z) (n i : nat) (s : swapst A) : nat * swapst A :=
  match n with
  | O => (i, s)
  | S n' =>
      if negb (lane_on mm i) then swap_first mm value p n' (S i) s
      else
        let '(w', old) := atomicrmw (fun _ => value i) p (sw_world s) in
        (i, SwapSt w' (Some old) (Some i) (sw_ret s))
  end.

(* second loop; note that it starts at the same index [i] the first one stopped at *)
Fixpoint swap_rest {A} (mask : gang bool) (mm : Z) (value : gang A) (n i : nat) (s : swapst A)
  : option (swapst A) :=
  match n with
  | O => Some s
  | S n' =>
      if negb (lane_on mm i) then swap_rest mask mm value n' (S i) s
      else match sw_last s with
           | None => None
           | Some j => swap_rest mask mm value n' (S i)
                         (SwapSt (sw_world s) (sw_mem s) (Some i) (set_ret mask j (Some (value i)) (sw_ret s)))
           end
  end.

Definition atomic_swap {A} (W : nat) (mask : gang bool) (value : gang A) (p : Z) (w : world A)
  : option (world A * gang (option A)) :=
  let mm := lanemask W mask in
  let '(i, s) := swap_first mm value p W O (SwapSt w None None (fun _ _ => None)) in
  match swap_rest mask mm value (W - i) i s with
  | None => None
  | Some s =>
      match sw_last s with
      | None => None                     (* index is an uninitialised variable *)
      | Some j => Some (sw_world s, fun l => set_ret mask j (sw_mem s) (sw_ret s) l l)
      end
  end.

(** ** Loops over the active instances *)

(* foreach_active(i) with a body acting on a state; [None] when undefined *)
Fixpoint run_events {St} (body : Z -> gang bool -> St -> option St) (evs : list aevent) (s : St) : option St :=
  match evs with
  | [] => Some s
  | ev :: t => match body (av_index ev) (av_mask ev) s with
               | Some s' => run_events body t s'
               | None => None
               end
  end.
Definition foreach_active_do {St} (W : nat) (mask : gang bool) (body : Z -> gang bool -> St -> option St)
    (fuel : nat) (s : St) : option St :=
  match foreach_active W (fun _ => true) mask fuel with
  | None => None
  | Some (evs, _) => run_events body evs s
  end.

(* [ret = insert(ret, i, r)] under the mask of the body *)
Definition insert_masked {A} (m : gang bool) (ret : gang (option A)) (i : Z) (r : A) : gang (option A) :=
  fun l => if m l then insert ret (Z.to_nat i) (Some r) l else ret l.

(* one step per active instance: [f l old] is the value it leaves in memory at [ptr l] *)
Definition per_instance {A} (W : nat) (ptr : gang Z) (f : gang (A -> A)) (i : Z) (m : gang bool)
    (s : world A * gang (option A)) : option (world A * gang (option A)) :=
  match extract W ptr i, extract W f i with
  | Some p, Some g =>
      let '(w', r) := atomicrmw g p (fst s) in
      Some (w', insert_masked m (snd s) i r)
  | _, _ => None
  end.

(* stdlib/stdlib.ispc:2919-2930, 2969-2980, 2994-3004: atomic_OP_global(uniform T * varying, T);
   builtins/generic.ispc:2790-2821 float/double add and subtract (with ptr the same everywhere). *)
Definition atomic_loop_global {A} (W : nat) (mask : gang bool) (op : A -> A -> A) (ptr : gang Z)
    (value : gang A) (fuel : nat) (w : world A) : option (world A * gang (option A)) :=
  foreach_active_do W mask (per_instance W ptr (fun l old => op old (value l))) fuel (w, fun _ => None).

(* stdlib/stdlib.ispc:3064-3074 atomic_compare_exchange_global(uniform T * varying, T, T) *)
Definition atomic_cmpxchg_ptrs {A} (eqb : A -> A -> bool) (W : nat) (mask : gang bool) (ptr : gang Z)
    (cmp new : gang A) (fuel : nat) (w : world A) : option (world A * gang (option A)) :=
  foreach_active_do W mask (per_instance W ptr (fun l old => op_cmpxchg eqb old (cmp l) (new l))) fuel
    (w, fun _ => None).

(* builtins/generic.ispc:2996-3021 __atomic_compare_exchange_T_global: the loop is in the
   [unmasked] function __atomic_cmpxchg_v, whose mask is all on (src/func.cpp:426-433).
   The caller then keeps the lanes of its own mask. *)
Definition atomic_cmpxchg_generic {A} (eqb : A -> A -> bool) (W : nat) (mask : gang bool) (p : Z)
    (cmp new : gang A) (fuel : nat) (w : world A) : option (world A * gang (option A)) :=
  foreach_active_do W (fun _ => true)
    (per_instance W (fun _ => p) (fun l old => op_cmpxchg eqb old (cmp l) (new l))) fuel (w, fun _ => None).

(* builtins/util.m4 per_lane (the unknown-mask loop): lane [i], lane mask 2^i in 64 bits *)
Fixpoint per_lane {St} (mm : Z) (body : nat -> St -> St) (n i : nat) (lanemask : Z) (s : St) : St :=
  match n with
  | O => s
  | S n' =>
      let s := if Z.land mm lanemask =? lanemask then body i s else s in
      per_lane mm body n' (S i) (wrapu 64 (lanemask * 2)) s
  end.

(* builtins/util.m4:2635-2654 __atomic_compare_exchange_T_global and 2577-2591
   global_atomic_associative_fp: one atomic per set lane, results stored to a vector in memory. *)
Definition per_lane_atomics {A} (W : nat) (mask : gang bool) (p : Z) (f : gang (A -> A)) (w : world A)
  : world A * gang (option A) :=
  per_lane (movmsk W mask)
    (fun i s => let '(w', r) := atomicrmw (f i) p (fst s) in (w', insert (snd s) i (Some r)))
    W O 1 (w, fun _ => None).
Definition atomic_cmpxchg_m4 {A} (eqb : A -> A -> bool) (W : nat) (mask : gang bool) (p : Z)
    (cmp new : gang A) (w : world A) : world A * gang (option A) :=
  per_lane_atomics W mask p (fun l old => op_cmpxchg eqb old (cmp l) (new l)) w.
Definition atomic_fp_m4 {A} (op : A -> A -> A) (W : nat) (mask : gang bool) (p : Z) (value : gang A)
    (w : world A) : world A * gang (option A) :=
  per_lane_atomics W mask p (fun l old => op old (value l)) w.

(** ** Local atomics *)

(* stdlib/stdlib.ispc:3125-3149 LOCAL_ATOMIC, varying pointer or uniform pointer ([ptr] constant):
   ret = insert(ret, i, *ptrs[i]); *ptrs[i] = OPFUNC( *ptrs[i], extract(value, i)) *)
Definition local_step {A} (W : nat) (ptr : gang Z) (f : gang (A -> A)) (i : Z) (m : gang bool)
    (s : (Z -> A) * gang (option A)) : option ((Z -> A) * gang (option A)) :=
  match extract W ptr i, extract W f i with
  | Some p, Some g =>
      let ret := insert_masked m (snd s) i (fst s p) in
      Some (mupd (fst s) p (g (fst s p)), ret)
  | _, _ => None
  end.
Definition atomic_local {A} (W : nat) (mask : gang bool) (opfunc : A -> A -> A) (ptr : gang Z)
    (value : gang A) (fuel : nat) (m : Z -> A) : option ((Z -> A) * gang (option A)) :=
  foreach_active_do W mask (local_step W ptr (fun l old => opfunc old (value l))) fuel (m, fun _ => None).

(* 3239-3266 LOCAL_CMPXCHG *)
Definition atomic_cmpxchg_local {A} (eqb : A -> A -> bool) (W : nat) (mask : gang bool) (ptr : gang Z)
    (cmp new : gang A) (fuel : nat) (m : Z -> A) : option ((Z -> A) * gang (option A)) :=
  foreach_active_do W mask (local_step W ptr (fun l old => if eqb old (cmp l) then new l else old)) fuel
    (m, fun _ => None).

(* 3151-3185: the OPFUNCs.  min and max: stdlib min/max on the type. *)
Inductive iop := Iadd | Isub | Iand | Ior | Ixor | Imin | Imax | Iswap.
Definition local_int (n : Z) (o : iop) (a b : Z) : Z :=
  match o with
  | Iadd => wraps n (a + b) | Isub => wraps n (a - b)
  | Iand => Z.land a b | Ior => Z.lor a b | Ixor => Z.lxor a b
  | Imin => if a <? b then a else b | Imax => if a <? b then b else a
  | Iswap => b
  end.
Definition local_uint (n : Z) (o : iop) (a b : Z) : Z :=
  match o with
  | Iadd => wrapu n (a + b) | Isub => wrapu n (a - b)
  | Iand => Z.land a b | Ior => Z.lor a b | Ixor => Z.lxor a b
  | Imin => if a <? b then a else b | Imax => if a <? b then b else a
  | Iswap => b
  end.
Inductive fop := Fadd | Fsub | Fswap.
(* 3165-3167 float *)
Definition local_float (o : fop) (a b : spec_float) : spec_float :=
  match o with
  | Fadd => SFadd 24 128 a b | Fsub => SFsub 24 128 a b | Fswap => b
  end.
(* 3183-3185 double: __swap returns a - b *)
Definition local_double (o : fop) (a b : spec_float) : spec_float :=
  match o with
  | Fadd => SFadd 53 1024 a b | Fsub => SFsub 53 1024 a b | Fswap => SFsub 53 1024 a b
  end.
