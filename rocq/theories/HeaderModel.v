(** Generated headers: the declarations of structures, enumerations and short vectors (src/header.cpp 36-382, 880-925,
    1031-1080), the C declarations of types (GetDeclaration, src/type.cpp), and where the members are in memory
    (LLVMStorageType, src/type.cpp, with LLVM's data layout). *)
From Coq Require Import List Bool Arith.
Import ListNotations.
From Verif Require Import CastModel.

(** What is in one cell of memory: a value of a basic type, an enumeration, a pointer. *)
Inductive sc := SB (b : basic) | SEnum (e : nat) | SPtr.
(** Variability (src/type.h): unbound members have that of their structure. *)
Inductive var := Unb | Uni | Vary | Soa (w : nat).
(** Types of members; names of structures and enumerations are numbers.  al: __attribute__((aligned)), 0 without. *)
Inductive ty :=
| TScalar (x : var) (s : sc)
| TVector (x : var) (n : nat) (b : basic)
| TArray (n : nat) (t : ty)
| TStruct (x : var) (name al : nat) (ms : list ty).

(** StructType::GetElementType (src/type.cpp 2195-2216): ResolveUnboundVariability. *)
Definition eff (v x : var) : var := match x with Unb => v | _ => x end.

Definition round_up (k a : nat) : nat := ((k + (a - 1)) / a) * a.

(** Sizes in memory; a bool takes a byte. *)
Definition bsize (b : basic) : nat :=
  match b with
  | BBool | BInt1 | BInt8 | BUInt8 => 1
  | BInt16 | BUInt16 | BHalf => 2
  | BInt32 | BUInt32 | BFloat => 4
  | BInt64 | BUInt64 | BDouble => 8
  end.

Section Target.
(** Gang size; bits of the mask or data type of the target; the data layout: size of pointers, alignment of scalars and
    of LLVM vectors of a number of bytes. *)
Variables (W dtw : nat) (psize : nat) (salign : sc -> nat) (valign : nat -> nat).

Definition ssize (s : sc) : nat := match s with SB b => bsize b | SEnum _ => 4 | SPtr => psize end.
(** VectorType::getVectorMemoryCount (src/type.cpp 1835-1857). *)
Definition mem_count (n : nat) : nat :=
  let p := 2 ^ Nat.log2_up n in if p * dtw <? 128 then 128 / dtw else p.

(** ** In ispc *)
(** (size, alignment) of an LLVM vector, array and structure (llvm::DataLayout). *)
Definition l_vector (bytes : nat) : nat * nat := (round_up bytes (valign bytes), valign bytes).
Definition l_array (n : nat) (l : nat * nat) : nat * nat := (n * fst l, snd l).
Fixpoint l_fields (k : nat) (ls : list (nat * nat)) : nat :=
  match ls with [] => k | l :: ls => l_fields (round_up k (snd l) + fst l) ls end.
Definition l_align (ls : list (nat * nat)) : nat := fold_right Nat.max 1 (map snd ls).
Definition l_struct (ls : list (nat * nat)) : nat * nat := (round_up (l_fields 0 ls) (l_align ls), l_align ls).
(** Varying and soa scalars (lGetAtomicLLVMType, EnumType::LLVMType, PointerType::LLVMType). *)
Definition l_scalar (v : var) (s : sc) : nat * nat :=
  match v with
  | Vary => l_vector (W * ssize s)
  | Soa w => l_array w (ssize s, salign s)
  | _ => (ssize s, salign s)
  end.
(** LLVMStorageType.  lGetVectorLLVMType, ArrayType::LLVMType, StructType::RegisterInStructTypeMap; the alignment of a
    structure is not part of its LLVM type; an empty structure has one byte. *)
Fixpoint layout (v : var) (t : ty) : nat * nat :=
  match t with
  | TScalar x s => l_scalar (eff v x) s
  | TVector x n b =>
      match eff v x with
      | Vary => l_array n (l_scalar Vary (SB b))
      | Soa w => l_array n (l_scalar (Soa w) (SB b))
      | _ => l_vector (mem_count n * bsize b)
      end
  | TArray n t => l_array n (layout v t)
  | TStruct x _ _ ms => l_struct (match ms with [] => [(1, 1)] | _ => map (layout (eff v x)) ms end)
  end.
(** The offset and kind of what a path of member numbers, array and vector indices, lanes leads to. *)
Definition in_scalar (v : var) (s : sc) (p : list nat) : option (nat * sc) :=
  match v, p with
  | Vary, [i] => if i <? W then Some (i * ssize s, s) else None
  | Soa w, [i] => if i <? w then Some (i * ssize s, s) else None
  | Uni, [] => Some (0, s)
  | Unb, [] => Some (0, s)
  | _, _ => None
  end.
Definition shift (k : nat) (r : option (nat * sc)) : option (nat * sc) := match r with Some (o, s) => Some (k + o, s) | None => None end.
Fixpoint offset (v : var) (t : ty) (p : list nat) {struct t} : option (nat * sc) :=
  match t with
  | TScalar x s => in_scalar (eff v x) s p
  | TVector x n b =>
      match p with
      | i :: p =>
          if i <? n then
            match eff v x with
            | Vary => shift (i * fst (l_scalar Vary (SB b))) (in_scalar Vary (SB b) p)
            | Soa w => shift (i * fst (l_scalar (Soa w) (SB b))) (in_scalar (Soa w) (SB b) p)
            | _ => shift (i * bsize b) (in_scalar Uni (SB b) p)
            end
          else None
      | [] => None
      end
  | TArray n t => match p with i :: p => if i <? n then shift (i * fst (layout v t)) (offset v t p) else None | [] => None end
  | TStruct x _ _ ms =>
      match p with
      | [] => None
      | i :: p =>
          (fix go (k i : nat) (ms : list ty) {struct ms} : option (nat * sc) :=
             match ms with
             | [] => None
             | t :: ms =>
                 let o := round_up k (snd (layout (eff v x) t)) in
                 match i with
                 | O => shift o (offset (eff v x) t p)
                 | S i => go (o + fst (layout (eff v x) t)) i ms
                 end
             end) 0 i ms
      end
  end.

(** ** In the header *)
(** C types.  CVec a n b: struct { b v[n]; } aligned to a, as lEmitVectorTypedefs declares it.  CStruct a ms: members with the
    alignment written before them, 0 for none, and that of the structure.  CBad: not C. *)
Inductive cty := CScalar (s : sc) | CVec (a n : nat) (b : basic) | CArray (n : nat) (t : cty) | CStruct (a : nat) (ms : list (nat * cty)) | CBad.

(** The variability an array has: that of what its elements are made of. *)
Fixpoint variability (v : var) (t : ty) : var :=
  match t with TScalar x _ => eff v x | TVector x _ _ => eff v x | TArray _ t => variability v t | TStruct x _ _ _ => eff v x end.
Definition is_array (t : ty) : bool := match t with TArray _ _ => true | _ => false end.
Definition is_struct (t : ty) : bool := match t with TStruct _ _ _ _ => true | _ => false end.
Definition is_pointer (t : ty) : bool := match t with TScalar _ SPtr => true | _ => false end.
Definition is_varying (v : var) (t : ty) : bool := match variability v t with Vary => true | _ => false end.
(** lEmitVectorTypedefs (src/header.cpp 265-306), for the uniform vector type. *)
Definition c_vector (n : nat) (b : basic) : cty := CVec (snd (l_vector (mem_count n * bsize b))) n b.
(** ArrayType::GetDeclaration (src/type.cpp 1553-1590): [soaWidth] and [vWidth] after the dimensions. *)
Definition c_wrap (v : var) (c : cty) : cty := match v with Vary => CArray W c | Soa w => CArray w c | _ => c end.
(** A member needs its alignment written down (src/header.cpp 113-118, 142-145). *)
Definition aligned_member (v : var) (t : ty) : bool := is_varying v t && negb (is_struct t).

(** GetDeclaration of a type; arr: below an array, where the type is made uniform first. *)
Fixpoint decl (arr : bool) (v : var) (t : ty) : cty :=
  match t with
  | TScalar x s =>
      if arr then c_wrap (eff v x) (CScalar s)
      else match eff v x, s with
           | Vary, SEnum _ => CArray W (CScalar s)      (* src/type.cpp 909-936 *)
           | Soa w, _ => CArray w (CScalar s)
           | _, _ => CScalar s                           (* src/type.cpp 569-636, 1183-1232 *)
           end
  | TVector x n b =>                                     (* src/type.cpp 1751-1753: float[4]3 v for soa *)
      if arr then c_wrap (eff v x) (c_vector n b)
      else match eff v x with Soa _ => CBad | _ => c_vector n b end
  | TArray n t => CArray n (decl true v t)
  | TStruct x _ al ms =>
      let v' := if arr then Uni else eff v x in
      let members :=
        map (fun t =>
               let d := decl false v' t in
               let d := if negb (is_array t) && negb (is_pointer t) && is_varying v' t && negb (is_struct t) then
                          match d with CArray n c => CArray n (CArray W c) | _ => CArray W d end
                        else d in
               (if aligned_member v' t then snd (layout v' t) else 0, d)) ms in
      let a := if negb (al =? 0) then al
               else if existsb (aligned_member v') ms then snd (layout v' (TStruct Unb 0 0 ms)) else 0 in
      let s := CStruct a members in
      if arr then c_wrap (eff v x) s else s
  end.
(** lEmitStructDecl. *)
Definition header (v : var) (t : ty) : cty := decl false v t.

(** ** Which declarations, in which order *)
Inductive item := IVec (n : nat) (b : basic) | IEnum (e : nat) | IStruct (x : var) (name : nat).
Definition var_eqb (a b : var) : bool :=
  match a, b with Unb, Unb | Uni, Uni | Vary, Vary => true | Soa n, Soa k => n =? k | _, _ => false end.
Definition item_eqb (a b : item) : bool :=
  match a, b with
  | IVec n b, IVec k c => (n =? k) && basic_eqb b c
  | IEnum e, IEnum f => e =? f
  | IStruct x n, IStruct y k => var_eqb x y && (n =? k)
  | _, _ => false
  end.
(** lGetElementStructType (src/header.cpp 36-51). *)
Fixpoint element_struct (v : var) (t : ty) : option (var * ty) :=
  match t with TStruct _ _ _ _ => Some (v, t) | TArray _ t => element_struct v t | _ => None end.
(** lEmitStructDecl (src/header.cpp 71-98): the structures emitted so far, with their members.  unifs: emitUnifs. *)
Definition entry := (item * (var * list ty))%type.
Definition contains_varying (v : var) (ms : list ty) : bool := existsb (is_varying v) ms.
Fixpoint emit (unifs : bool) (v : var) (t : ty) (done : list entry) {struct t} : list entry :=
  match t with
  | TStruct x name _ ms =>
      let v' := eff v x in
      if negb unifs && negb (contains_varying v' ms) then done
      else if existsb (fun e => item_eqb (IStruct v' name) (fst e)) done then done
      else fold_left (fun done t => emit unifs v' t done) ms done ++ [(IStruct v' name, (v', ms))]
  | TArray _ t => emit unifs v t done
  | _ => done
  end.
(** lGetExportedTypes (src/header.cpp 324-364): the vectors and enumerations of a type.  Equal ones are left out later. *)
Fixpoint vectors (v : var) (t : ty) : list (var * nat * basic) :=
  match t with
  | TVector x n b => [(eff v x, n, b)]
  | TArray _ t => vectors v t
  | TStruct x _ _ ms => flat_map (vectors (eff v x)) ms
  | _ => []
  end.
Fixpoint enums (v : var) (t : ty) : list nat :=
  match t with
  | TScalar _ (SEnum e) => [e]
  | TArray _ t => enums v t
  | TStruct x _ _ ms => flat_map (enums (eff v x)) ms
  | _ => []
  end.
Fixpoint dedup (l : list item) : list item :=
  match l with [] => [] | x :: r => x :: filter (fun y => negb (item_eqb x y)) (dedup r) end.
(** Module::writeHeader (src/header.cpp 885-914): from the types of functions and, after them, the types exported explicitly,
    of which only the outermost is taken.  Varying vectors are left out (src/header.cpp 277-282).  fs: parameter and result types
    with pointers and references removed. *)
Definition uniform_vectors (l : list (var * nat * basic)) : list item :=
  flat_map (fun p => match p with (Uni, n, b) => [IVec n b] | _ => [] end) l.
Definition struct_items (unifs : bool) (ts : list ty) : list entry :=
  fold_left (fun done t => emit unifs Uni t done) ts [].
Definition explicit_vectors (es : list ty) : list item := flat_map (fun t => match t with TVector _ n b => [IVec n b] | _ => [] end) es.
Definition explicit_enums (es : list ty) : list item := flat_map (fun t => match t with TScalar _ (SEnum e) => [IEnum e] | _ => [] end) es.
Definition as_uniform (t : ty) : ty := match t with TStruct _ n a ms => TStruct Uni n a ms | _ => t end.
(** What the functions' types are asked for: every structure in them (lAddTypeIfNew before the members). *)
Fixpoint structs (v : var) (t : ty) : list ty :=
  match t with
  | TStruct x n a ms => TStruct (eff v x) n a ms :: flat_map (structs (eff v x)) ms
  | TArray _ t => structs v t
  | _ => []
  end.
Definition is_exported_struct (t : ty) : bool := is_struct t.
Definition write_header (fs es : list ty) : list item * list entry :=
  (dedup (uniform_vectors (flat_map (vectors Uni) fs) ++ explicit_vectors es) ++ dedup (map IEnum (flat_map (enums Uni) fs) ++ explicit_enums es),
   struct_items true (flat_map (structs Uni) fs ++ map as_uniform (filter is_exported_struct es))).
End Target.

(** The guard around a declaration (src/header.cpp 101-102): the name of the structure in C (StructType::GetCStructName,
    src/type.cpp 1985-1994), which differs for varying structures only. *)
Definition guard (x : var) (name : nat) : bool * nat := (match x with Vary => true | _ => false end, name).
(** What the preprocessor leaves: the first declaration for every guard. *)
Fixpoint preprocess (seen : list (bool * nat)) (l : list entry) : list entry :=
  match l with
  | [] => []
  | (IStruct x name, d) :: l =>
      if existsb (fun g => Bool.eqb (fst g) (fst (guard x name)) && (snd g =? name)) seen then preprocess seen l
      else (IStruct x name, d) :: preprocess (guard x name :: seen) l
  | e :: l => e :: preprocess seen l
  end.

(** Module::writeDispatchHeader (src/header.cpp 1031-1080), for the targets of one compilation in order: types are declared
    for the first target of each gang size 4, 8 and 16; uniform ones for the first of these. *)
Fixpoint dispatch_structs (emit_unifs : bool) (seen : list nat) (ts : list ty) (gangs : list nat) : list (nat * list entry) :=
  match gangs with
  | [] => []
  | w :: gangs =>
      if existsb (Nat.eqb w) [4; 8; 16] && negb (existsb (Nat.eqb w) seen) then
        (w, struct_items emit_unifs ts) :: dispatch_structs false (w :: seen) ts gangs
      else dispatch_structs emit_unifs seen ts gangs
  end.
