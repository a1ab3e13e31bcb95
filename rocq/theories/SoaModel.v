(** Arrays of [soa<w>] structures: where the elements lie in memory, how indexing,
    member access and pointer arithmetic find them, and how whole elements are
    loaded and stored.

    Modelled: the types of SOA data (src/type.cpp), [lComputeSliceIndex],
    [GetElementPtrInst], [AddElementOffset], [ApplySliceOffset],
    [loadUniformFromSOA], [storeUniformToSOA] and the SOA part of [scatter]
    (src/ctx.cpp), [IndexExpr], [StructMemberExpr] and pointer arithmetic
    (src/expr.cpp).

    Simplifications: 64-bit targets with 64-bit addressing (32-bit addressing is in
    AddrModel.v); the signed overflow of index * size, which LLVM may treat as
    undefined, wraps; every program instance's pointer is computed by itself, as the
    vector operations used are all lane-wise; booleans are ordinary one byte data. *)
From Coq Require Import ZArith List Bool Lia.
From Verif Require Import Bits.
Import ListNotations.
Open Scope Z_scope.

(** * Types and their layout *)

(** The types that may occur in an [soa] structure (src/type.cpp 2241-2266,
    [checkIfCanBeSOA]): basic types (atomic types, enums, pointers) with their size and
    alignment, arrays and short vectors (laid out as arrays in SOA data,
    src/type.cpp 1790-1797), and structures. *)
Inductive sty : Type :=
| SBasic (size align : Z)
| SArr (n : nat) (elt : sty)
| SStruct (fields : list sty).

(** LLVM's data layout: a structure is aligned as its most aligned field. *)
Fixpoint alignof (t : sty) : Z :=
  match t with
  | SBasic _ a => a
  | SArr _ e => alignof e
  | SStruct fs => fold_right (fun f m => Z.max (alignof f) m) 1 fs
  end.

Definition align_up (x a : Z) : Z := (x + a - 1) / a * a.

(** The end of the fields [fs] when the first of them may start at [o]. *)
Definition fields_end (sz : sty -> Z) :=
  fix go (o : Z) (fs : list sty) : Z :=
    match fs with
    | [] => o
    | f :: r => go (align_up o (alignof f) + sz f) r
    end.

(** The size of a type. *)
Fixpoint sizeof (t : sty) : Z :=
  match t with
  | SBasic s _ => s
  | SArr n e => Z.of_nat n * sizeof e
  | SStruct fs => align_up (fields_end sizeof 0 fs) (alignof t)
  end.

(** The offset of the [k]th of the fields [fs] ([Target::StructOffset]). *)
Fixpoint field_off_from (o : Z) (fs : list sty) (k : nat) : Z :=
  match fs, k with
  | [], _ => o
  | f :: _, O => align_up o (alignof f)
  | f :: r, S k' => field_off_from (align_up o (alignof f) + sizeof f) r k'
  end.

Definition field_off (fs : list sty) (k : nat) : Z := field_off_from 0 fs k.

(** The type in memory of the [soa<w>] variant of a type: every basic type becomes an
    array of [w] of them (src/type.cpp 680-683 for atomic types, 947-950 for enums, 1271-1274 for
    pointers); arrays (1468-1480), short vectors (1794-1795) and structures are
    made of the SOA variants of their elements. *)
Fixpoint llvm_type (w : nat) (t : sty) : sty :=
  match t with
  | SBasic s a => SArr w (SBasic s a)
  | SArr n e => SArr n (llvm_type w e)
  | SStruct fs => SStruct (map (llvm_type w) fs)
  end.

(** * Pointers *)

(** The kinds of pointer types (src/type.h, [PointerType::Property]): ordinary ones,
    slice pointers and frozen slice pointers. *)
Inductive prop := PNone | PSlice | PFrozen.

(** How an index gets to the address computation (src/expr.cpp 5370-5415,
    [IndexExpr::TypeCheck]; 2960-2975 for pointer arithmetic): uniform indices are
    made 64 bits wide, as are those of pointer arithmetic; varying ones are [int32] or
    [uint32] unless they are 64 bits wide. *)
Inductive ikind := KUni | KVarI32 | KVarU32 | KVar64.

Definition ibits (k : ikind) : Z :=
  match k with KUni | KVar64 => 64 | KVarI32 | KVarU32 => 32 end.

(** [lExtendIntTo64] (src/ctx.cpp 2127-2137): the index of the address computation is
    extended as its type says; LLVM's own [getelementptr] extends the sign. *)
Definition extend (k : ikind) (x : Z) : Z :=
  match k with
  | KVarU32 => wrapu 32 x
  | KVarI32 => wraps 32 x
  | KUni | KVar64 => wraps 64 x
  end.

(** [GetElementPtrInst] for ordinary pointers and [applyVaryingGEP] (src/ctx.cpp
    2335-2358, 2145-2204). *)
Definition gep (addr index size : Z) : Z := wrapu 64 (addr + index * size).

(** The loop of [lComputeSliceIndex] that finds the logarithm of the width
    (src/ctx.cpp 2244-2249), with [fuel] for its termination. *)
Fixpoint log_width (fuel : nat) (sw : Z) : Z :=
  match fuel with
  | O => 0
  | S fuel' => if 1 <? sw then 1 + log_width fuel' (Z.shiftr sw 1) else 0
  end.

(** [lComputeSliceIndex] (src/ctx.cpp 2234-2273): the index and the slice offset of
    the pointer are added in the width of the index; the result is the minor index,
    which is the new slice offset, and the major index. *)
Definition compute_slice_index (k : ikind) (w index off : Z) : Z * Z :=
  let log := log_width 31 w in
  let sum := wraps (ibits k) (wraps (ibits k) index + off) in
  let minor := Z.land sum (w - 1) in
  let major := Z.shiftr sum log in
  (minor, major).

(** A pointer to SOA data: the address, the slice offset (unused in ordinary
    pointers), the kind of its type, and the type it points to. *)
Record lval := LVal { la : Z; loff : Z; lprop : prop; lty : sty }.

(** The [soa<w>] variable or array at an address (src/expr.cpp, [SymbolExpr]): an
    ordinary pointer. *)
Definition lvar (base : Z) (t : sty) : lval := LVal base 0 PNone t.

(** The common part of the two [GetElementPtrInst] methods (src/ctx.cpp 2309-2333
    and 2372-2390): slice pointers that are not frozen get a new slice offset.  The
    stride is the size of what is indexed. *)
Definition slice_gep (k : ikind) (w : nat) (p : prop) (addr off index stride : Z) : Z * Z :=
  match p with
  | PFrozen => (gep addr (extend k index) stride, off)
  | _ => let '(minor, major) := compute_slice_index k (Z.of_nat w) index off in
         (gep addr (extend k major) stride, minor)
  end.

(** Indexing an array (src/expr.cpp 5215-5250, [IndexExpr::GetLValue]; 5175-5188,
    [lConvertPtrToSliceIfNeeded]): ordinary pointers to SOA data are first made slice
    pointers with offset 0.  The kind of the result is that of 5252-5325,
    [IndexExpr::GetLValueType]: a slice pointer, frozen or not before. *)
Definition index_array (k : ikind) (w : nat) (l : lval) (index : Z) : option lval :=
  match lty l with
  | SArr _ e =>
      let '(addr, off) :=
        slice_gep k w (lprop l) (la l) (match lprop l with PNone => 0 | _ => loff l end) index
          (sizeof (llvm_type w e)) in
      Some (LVal addr off PSlice e)
  | _ => None
  end.

(** Adding an integer to a pointer, and indexing a pointer (src/expr.cpp 1772-1774
    and 5203-5213): the type pointed to stays. *)
Definition pointer_add (k : ikind) (w : nat) (l : lval) (index : Z) : lval :=
  let '(addr, off) :=
    slice_gep k w (lprop l) (la l) (match lprop l with PNone => 0 | _ => loff l end) index
      (sizeof (llvm_type w (lty l))) in
  LVal addr off (match lprop l with PFrozen => PFrozen | _ => PSlice end) (lty l).

(** Subtracting an integer (src/expr.cpp 1836-1843): the negated integer is added. *)
Definition pointer_sub (k : ikind) (w : nat) (l : lval) (index : Z) : lval :=
  pointer_add k w l (wraps (ibits k) (0 - wraps (ibits k) index)).

(** The difference of two slice pointers (src/expr.cpp 1780-1835): the difference of
    the addresses divided by the size, times the width, plus the difference of the
    slice offsets. *)
Definition pointer_diff (w : nat) (p q : lval) : Z :=
  let delta := wraps 64 (la p - la q) in
  let major := Z.quot delta (sizeof (llvm_type w (lty p))) in
  let minor := wraps 32 (loff p - loff q) in
  wraps 64 (wraps 64 (major * Z.of_nat w) + minor).

(** Accessing a member (src/ctx.cpp 2432-2524, [AddElementOffset]; the kind is that
    of src/expr.cpp 5562-5594, [StructMemberExpr::GetLValueType]): the slice offset
    stays and slice pointers become frozen. *)
Definition member (w : nat) (l : lval) (k : nat) : option lval :=
  match lty l with
  | SStruct fs =>
      match nth_error fs k with
      | Some f => Some (LVal (wrapu 64 (la l + field_off (map (llvm_type w) fs) k)) (loff l)
                          (match lprop l with PNone => PNone | _ => PFrozen end) f)
      | None => None
      end
  | _ => None
  end.

(** An access expression: members and array elements of a variable. *)
Inductive access := AIdx (k : ikind) (i : Z) | AMem (k : nat).

Definition step (w : nat) (l : option lval) (a : access) : option lval :=
  match l with
  | None => None
  | Some l => match a with
              | AIdx k i => index_array k w l i
              | AMem k => member w l k
              end
  end.

Definition eval (w : nat) (l : lval) (as_ : list access) : option lval := fold_left (step w) as_ (Some l).

(** [ApplySliceOffset] (src/ctx.cpp 2667-2699): the address of the data of a basic
    type. *)
Definition apply_slice_offset (addr off size : Z) : Z := gep addr (wraps 32 off) size.

Definition leaf_address (l : lval) : option Z :=
  match lty l with
  | SBasic s _ => Some (apply_slice_offset (la l) (loff l) s)
  | _ => None
  end.

(** * Loads and stores *)

(** Memory: a byte at every address. *)
Definition memory := Z -> Z.

Definition read_bytes (m : memory) (addr : Z) (n : Z) : list Z :=
  map (fun k => m (addr + Z.of_nat k)) (seq 0 (Z.to_nat n)).

Definition write_bytes (m : memory) (addr : Z) (bs : list Z) : memory :=
  fun x => if (addr <=? x) && (x <? addr + Z.of_nat (length bs))
           then nth (Z.to_nat (x - addr)) bs 0 else m x.

(** The values of a type: the bytes of a basic type, or the values of the elements. *)
Inductive val := VBytes (bs : list Z) | VColl (vs : list val).

(** [loadUniformFromSOA] (src/ctx.cpp 2701-2731), and [gather] through slice pointers
    in one program instance (2825-2870): collections are loaded element by element,
    each found by [AddElementOffset]. *)
Fixpoint load_soa (w : nat) (m : memory) (addr off : Z) (t : sty) : val :=
  match t with
  | SBasic s _ => VBytes (read_bytes m (apply_slice_offset addr off s) s)
  | SArr n e =>
      VColl (map (fun k => load_soa w m (wrapu 64 (addr + sizeof (llvm_type w e) * Z.of_nat k)) off e)
               (seq 0 n))
  | SStruct fs =>
      VColl ((fix go (fs' : list sty) (k : nat) : list val :=
                match fs' with
                | [] => []
                | f :: r => load_soa w m (wrapu 64 (addr + field_off (map (llvm_type w) fs) k)) off f
                              :: go r (S k)
                end) fs O)
  end.

(** [storeUniformToSOA] (src/ctx.cpp 3383-3406), and [scatter] through slice pointers
    in one program instance (3213-3257): element by element.  (Only used with a value
    of the type [t].) *)
Fixpoint store_soa (w : nat) (m : memory) (addr off : Z) (t : sty) (v : val) : memory :=
  match t, v with
  | SBasic s _, VBytes bs => write_bytes m (apply_slice_offset addr off s) bs
  | SArr n e, VColl vs =>
      fold_left
        (fun m k => store_soa w m (wrapu 64 (addr + sizeof (llvm_type w e) * Z.of_nat k)) off e
                      (nth k vs (VBytes [])))
        (seq 0 n) m
  | SStruct fs, VColl vs =>
      (fix go (fs' : list sty) (k : nat) (m : memory) : memory :=
         match fs' with
         | [] => m
         | f :: r => go r (S k)
                       (store_soa w m (wrapu 64 (addr + field_off (map (llvm_type w) fs) k)) off f
                          (nth k vs (VBytes [])))
         end) fs O m
  | _, _ => m
  end.

Definition load (w : nat) (m : memory) (l : lval) : val := load_soa w m (la l) (loff l) (lty l).

Definition store (w : nat) (m : memory) (l : lval) (v : val) : memory :=
  store_soa w m (la l) (loff l) (lty l) v.

(** A program using an array of SOA structures: loads and stores of whole elements
    and of members. *)
Inductive stmt :=
| SLoad (as_ : list access)
| SStore (as_ : list access) (v : val).

Definition exec (w : nat) (arr : lval) (m : memory) (s : stmt) : memory * option val :=
  match s with
  | SLoad as_ => match eval w arr as_ with
                | Some l => (m, Some (load w m l))
                | None => (m, None)
                end
  | SStore as_ v => match eval w arr as_ with
                   | Some l => (store w m l v, None)
                   | None => (m, None)
                   end
  end.

Fixpoint run (w : nat) (arr : lval) (m : memory) (p : list stmt) : memory * list (option val) :=
  match p with
  | [] => (m, [])
  | s :: r => let '(m1, o) := exec w arr m s in
              let '(m2, os) := run w arr m1 r in
              (m2, o :: os)
  end.

(** [scatter] of the elements of a basic type (src/ctx.cpp 3253-3375 with the
    semantics of the scatter builtins): the instances that are on write in order. *)
Definition scatter_leaf (s : Z) (m : memory) (lanes : list (bool * Z * Z * list Z)) : memory :=
  fold_left (fun m '(on, addr, off, bs) =>
               if on : bool then write_bytes m (apply_slice_offset addr off s) bs else m)
    lanes m.

(** The elements of a value. *)
Definition val_nth (v : val) (k : nat) : val :=
  match v with VColl vs => nth k vs (VBytes []) | _ => VBytes [] end.

Definition val_bytes (v : val) : list Z := match v with VBytes bs => bs | _ => [] end.

(** [scatter] (src/ctx.cpp 3196-3257): collections are scattered element by element,
    each for all of the program instances. *)
Fixpoint scatter_soa (w : nat) (m : memory) (t : sty) (lanes : list (bool * Z * Z * val)) : memory :=
  match t with
  | SBasic s _ =>
      scatter_leaf s m (map (fun '(on, addr, off, v) => (on, addr, off, val_bytes v)) lanes)
  | SArr n e =>
      fold_left
        (fun m k =>
           scatter_soa w m e
             (map (fun '(on, addr, off, v) =>
                     (on, wrapu 64 (addr + sizeof (llvm_type w e) * Z.of_nat k), off, val_nth v k)) lanes))
        (seq 0 n) m
  | SStruct fs =>
      (fix go (fs' : list sty) (k : nat) (m : memory) : memory :=
         match fs' with
         | [] => m
         | f :: r =>
             go r (S k)
               (scatter_soa w m f
                  (map (fun '(on, addr, off, v) =>
                          (on, wrapu 64 (addr + field_off (map (llvm_type w) fs) k), off, val_nth v k)) lanes))
         end) fs O m
  end.

Definition scatter (w : nat) (m : memory) (t : sty) (lanes : list (bool * lval * val)) : memory :=
  scatter_soa w m t (map (fun '(on, l, v) => (on, la l, loff l, v)) lanes).

(** [gather] through varying pointers: every instance that is on loads its element. *)
Definition gather (w : nat) (m : memory) (lanes : list (bool * lval)) : list (option val) :=
  map (fun '(on, l) => if on : bool then Some (load w m l) else None) lanes.
