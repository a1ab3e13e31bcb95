(** new and delete.

    src/expr.cpp:10194-10430 (NewExpr), src/stmt.cpp:4300-4400 (DeleteStmt), builtins/util.m4:5549-5835 and
    builtins/generic.ispc:1195-1332 (the run-time functions), src/preprocessor.cpp:313-327 (the alignment).

    The C library's allocation functions are a parameter of the model.  Allocated types are reduced to the size of
    one value and their rate; initializers to one value.  A 64-bit argument passed for a parameter declared 32 bits
    wide arrives with its upper half zero (the ABI leaves it open); a product that overflows in the sense of
    LLVM's nsw flag wraps (LLVM allows any value). *)
From Coq Require Import ZArith List Bool.
Import ListNotations.
Local Open Scope Z_scope.

(** Live blocks, newest first. *)
Record block := { b_addr : Z; b_size : Z; b_align : Z }.
Definition heap := list block.

(** What posix_memalign or _aligned_malloc do: the address chosen for an alignment and a size. *)
Definition allocator := heap -> Z -> Z -> option Z.

(** g->target and g->opt: gang size, 32-bit target, --addressing=32, Windows; whether the library is built from
    generic.ispc or from util.m4. *)
Record config := { width : nat; is32 : bool; force32 : bool; windows : bool; generic : bool }.
(** expr.cpp:10227 *)
Definition do32 (c : config) : bool := is32 c || force32 c.
(** preprocessor.cpp:313-327 *)
Definition alignment (c : config) : Z := if Nat.eqb (width c) 1 then 16 else Z.of_nat (width c) * 4.

(** The declarations of posix_memalign and _aligned_malloc, util.m4:5578, 5635 (size_t), generic.ispc:1211-1219
    (int32 for both runtimes). *)
Definition received (c : config) (size : Z) : Z :=
  if is32 c || generic c then size mod 2 ^ 32 else size mod 2 ^ 64.

(** One call of the allocation function: the heap, and the address if there is one. *)
Definition call_alloc (c : config) (A : allocator) (h : heap) (size : Z) : heap * option Z :=
  let size := received c size in
  match A h (alignment c) size with
  | Some a => (if a =? 0 then h else {| b_addr := a; b_size := size; b_align := alignment c |} :: h, Some a)
  | None => (h, None)
  end.

(** free and _aligned_free: nothing for a null pointer, undefined for anything that is not a live block. *)
Definition free (h : heap) (a : Z) : option heap :=
  if a =? 0 then Some h
  else if existsb (fun b => b_addr b =? a) h then Some (filter (fun b => negb (b_addr b =? a)) h)
  else None.

(** A uniform pointer: posix_memalign leaves the variable that receives the address as it was if it fails. *)
Inductive pval := Ptr (a : Z) | Undef.
(** __new_uniform_32rt and _64rt: util.m4:5580, 5635, 5717, 5771, generic.ispc:1225, 1250, 1285, 1305. *)
Definition new_uniform_rt (c : config) (A : allocator) (h : heap) (size : Z) : heap * pval :=
  match call_alloc c A h size with
  | (h, Some a) => (h, Ptr a)
  | (h, None) => (h, if windows c || generic c then Ptr 0 else Undef)
  end.

(** __new_varying32_32rt, 32_64rt and 64_64rt: the loop over the lanes (per_lane, util.m4:7153; foreach_active,
    generic.ispc). *)
Fixpoint new_varying_rt (c : config) (A : allocator) (h : heap) (mask : list bool) (sizes : list Z) : heap * list Z :=
  match mask, sizes with
  | m :: mask, s :: sizes =>
      let (h, p) := if m then match call_alloc c A h s with (h, Some a) => (h, a) | (h, None) => (h, 0) end else (h, 0) in
      let (h, ps) := new_varying_rt c A h mask sizes in
      (h, p :: ps)
  | _, _ => (h, [])
  end.

(** __delete_varying_32rt and _64rt *)
Fixpoint delete_varying_rt (h : heap) (mask : list bool) (ptrs : list Z) : option heap :=
  match mask, ptrs with
  | m :: mask, p :: ptrs =>
      match (if m then free h p else Some h) with
      | Some h => delete_varying_rt h mask ptrs
      | None => None
      end
  | _, _ => Some h
  end.

(** The allocated type: the size of one value in bytes, and the rate written. *)
Inductive rate := Uniform | Varying.
Record atype := { t_size : Z; t_rate : option rate }.
(** NewExpr::NewExpr, expr.cpp:10217-10219 *)
Definition resolve (t : atype) : rate := match t_rate t with Some r => r | None => Uniform end.
(** expr.cpp:10257-10259 *)
Definition size_of (c : config) (t : atype) : Z :=
  match resolve t with Uniform => t_size t | Varying => Z.of_nat (width c) * t_size t end.

(** expr.cpp:10260-10264 after 10410-10421: the count converted to uint32 or uint64, and the product. *)
Definition bits (c : config) : Z := if do32 c then 32 else 64.
Definition alloc_size (c : config) (t : atype) (count : Z) : Z :=
  ((count mod 2 ^ bits c) * size_of c t) mod 2 ^ bits c.

(** NewExpr::GetValue for uniform new, expr.cpp:10277-10287; SExtInst of a 32-bit size. *)
Definition sext (c : config) (n : Z) : Z :=
  if do32 c then (if n <? 2 ^ 31 then n else n - 2 ^ 32) mod 2 ^ 64 else n.
(** The heap, the pointer, and the stores of the initializer: expr.cpp:10326-10337. *)
Definition new_uniform (c : config) (A : allocator) (h : heap) (t : atype) (count : Z) (init : option Z)
    : heap * pval * list (pval * Z) :=
  let (h, p) := new_uniform_rt c A h (sext c (alloc_size c t count)) in
  (h, p, match init with Some v => [(p, v)] | None => [] end).

(** NewExpr::GetValue for varying new, expr.cpp:10267-10275, 10289-10325: the initializer is stored for the lanes
    whose pointer is not null. *)
Definition new_varying (c : config) (A : allocator) (h : heap) (mask : list bool) (t : atype) (counts : list Z)
    (init : option Z) : heap * list Z * list (Z * Z) :=
  let (h, ps) := new_varying_rt c A h mask (map (alloc_size c t) counts) in
  (h, ps, match init with Some v => map (fun p => (p, v)) (filter (fun p => negb (p =? 0)) ps) | None => [] end).

(** DeleteStmt::EmitCode, stmt.cpp:4302-4358 *)
Definition delete_uniform (h : heap) (p : Z) : option heap := free h p.
Definition delete_varying (h : heap) (mask : list bool) (ptrs : list Z) : option heap := delete_varying_rt h mask ptrs.

(** FunctionEmitContext::StoreInst, ctx.cpp:3307-3340, used for the initializer of a varying atomic type: the store
    has the natural alignment of the vector, which is its size. *)
Definition store_alignment (c : config) (t : atype) : Z := size_of c t.
