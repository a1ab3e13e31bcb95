(** Conversions between types as the compiler emits them: TypeCastExpr::GetValue and
    lTypeConvAtomicOrUniformVector (src/expr.cpp), and the instructions of LLVM they use.  Every type
    conversion of the language, implicit or explicit, of a value that is not a constant ends here. *)
From Coq Require Import ZArith List Bool SpecFloat.
Import ListNotations.
From Verif Require Import Bits FoldModel.
Open Scope Z_scope.

(** src/type.h AtomicType::BasicType.  TYPE_INT1 has no name in the language. *)
Inductive basic := BBool | BInt1 | BInt8 | BUInt8 | BInt16 | BUInt16 | BInt32 | BUInt32 | BInt64 | BUInt64 | BHalf | BFloat | BDouble.

(** A value of LLVM: an integer of n bits by its bit pattern, a floating-point number (which NaN is not
    modelled), a pointer by its address, poison. *)
Inductive sv := IV (n b : Z) | FV (t : fty) (x : spec_float) | PV (a : Z) | Poison.
(** A scalar, a vector, an aggregate (array or structure). *)
Inductive lv := Sc (v : sv) | Vec (l : list sv) | Agg (l : list lv).

Fixpoint mapM {A B} (f : A -> option B) (l : list A) : option (list B) :=
  match l with
  | [] => Some []
  | x :: l => match f x, mapM f l with Some y, Some r => Some (y :: r) | _, _ => None end
  end.
(** An instruction on a scalar or on each element of a vector; None: not valid IR. *)
Definition lift (f : sv -> option sv) (v : lv) : option lv :=
  match v with
  | Sc x => option_map Sc (f x)
  | Vec l => option_map Vec (mapM f l)
  | Agg _ => None
  end.

(** ** Instructions (LLVM language reference) *)
Definition i_sext (n : Z) (v : sv) : option sv :=
  match v with IV k b => if k <? n then Some (IV n (wrapu n (wraps k b))) else None | Poison => Some Poison | _ => None end.
Definition i_zext (n : Z) (v : sv) : option sv :=
  match v with IV k b => if k <? n then Some (IV n b) else None | Poison => Some Poison | _ => None end.
Definition i_trunc (n : Z) (v : sv) : option sv :=
  match v with IV k b => if n <? k then Some (IV n (wrapu n b)) else None | Poison => Some Poison | _ => None end.
Definition i_sitofp (t : fty) (v : sv) : option sv :=
  match v with IV k b => Some (FV t (of_int t (wraps k b))) | Poison => Some Poison | _ => None end.
Definition i_uitofp (t : fty) (v : sv) : option sv :=
  match v with IV k b => Some (FV t (of_int t b)) | Poison => Some Poison | _ => None end.
(** poison if the value does not fit *)
Definition i_fptosi (n : Z) (v : sv) : option sv :=
  match v with
  | FV _ x => Some (match trunc x with Some z => if wraps n z =? z then IV n (wrapu n z) else Poison | None => Poison end)
  | Poison => Some Poison | _ => None
  end.
Definition i_fptoui (n : Z) (v : sv) : option sv :=
  match v with
  | FV _ x => Some (match trunc x with Some z => if wrapu n z =? z then IV n z else Poison | None => Poison end)
  | Poison => Some Poison | _ => None
  end.
(** fpext, fptrunc, or nothing *)
Definition i_fpcast (t : fty) (v : sv) : option sv :=
  match v with FV u x => Some (FV t (fconvert u t x)) | Poison => Some Poison | _ => None end.
Definition bit (b : bool) : sv := IV 1 (if b then 1 else 0).
(** icmp ne with zero *)
Definition i_ne0 (v : sv) : option sv :=
  match v with IV _ b => Some (bit (negb (b =? 0))) | Poison => Some Poison | _ => None end.
(** fcmp une with zero *)
Definition i_une0 (v : sv) : option sv :=
  match v with
  | FV _ x => Some (bit (match SFcompare x (S754_zero false) with Some Eq => false | _ => true end))
  | Poison => Some Poison | _ => None
  end.

(** ** Conversion of basic types *)
Inductive op := ONone | OSExt | OZExt | OTrunc | OSIToFP | OUIToFP | OFPToSI | OFPToUI | OFPCast | OICmpNe | OFCmpUne.

(** src/expr.cpp:7048-7604, the switch over the target type and, in it, over the source type.  None: FATAL. *)
Definition choose (to from : basic) : option op :=
  match to with
  | BHalf => (* 7048-7096 *)
      match from with
      | BBool => Some OUIToFP
      | BInt1 | BInt8 | BInt16 | BInt32 | BInt64 => Some OSIToFP
      | BUInt8 | BUInt16 | BUInt32 | BUInt64 => Some OUIToFP
      | BHalf => Some ONone
      | BFloat | BDouble => Some OFPCast
      end
  | BFloat => (* 7098-7150 *)
      match from with
      | BBool => Some OUIToFP
      | BInt1 | BInt8 | BInt16 | BInt32 | BInt64 => Some OSIToFP
      | BUInt8 | BUInt16 | BUInt32 | BUInt64 => Some OUIToFP
      | BHalf => Some OFPCast
      | BFloat => Some ONone
      | BDouble => Some OFPCast
      end
  | BDouble => (* 7152-7206 *)
      match from with
      | BBool => Some OUIToFP
      | BInt1 | BInt8 | BInt16 | BInt32 | BInt64 => Some OSIToFP
      | BUInt8 | BUInt16 | BUInt32 | BUInt64 => Some OUIToFP
      | BHalf | BFloat => Some OFPCast
      | BDouble => Some ONone
      end
  | BInt1 => (* 7208-7234 *)
      match from with
      | BBool => Some OZExt
      | BInt1 => Some ONone
      | BInt8 | BUInt8 | BInt16 | BUInt16 | BInt32 | BUInt32 | BInt64 | BUInt64 => Some OTrunc
      | _ => None
      end
  | BInt8 => (* 7235-7268 *)
      match from with
      | BBool => Some OZExt
      | BInt1 => Some OSExt
      | BInt8 | BUInt8 => Some ONone
      | BInt16 | BUInt16 | BInt32 | BUInt32 | BInt64 | BUInt64 => Some OTrunc
      | BFloat | BHalf | BDouble => Some OFPToSI
      end
  | BUInt8 => (* 7269-7302 *)
      match from with
      | BBool => Some OZExt
      | BInt1 => Some OSExt
      | BInt8 | BUInt8 => Some ONone
      | BInt16 | BUInt16 | BInt32 | BUInt32 | BInt64 | BUInt64 => Some OTrunc
      | BHalf | BFloat | BDouble => Some OFPToUI
      end
  | BInt16 => (* 7303-7338 *)
      match from with
      | BBool => Some OZExt
      | BInt1 | BInt8 => Some OSExt
      | BUInt8 => Some OZExt
      | BInt16 | BUInt16 => Some ONone
      | BInt32 | BUInt32 | BInt64 | BUInt64 => Some OTrunc
      | BHalf | BFloat | BDouble => Some OFPToSI
      end
  | BUInt16 => (* 7339-7374 *)
      match from with
      | BBool => Some OZExt
      | BInt1 | BInt8 => Some OSExt
      | BUInt8 => Some OZExt
      | BInt16 | BUInt16 => Some ONone
      | BInt32 | BUInt32 | BInt64 | BUInt64 => Some OTrunc
      | BHalf | BFloat | BDouble => Some OFPToUI
      end
  | BInt32 => (* 7375-7410 *)
      match from with
      | BBool => Some OZExt
      | BInt1 | BInt8 | BInt16 => Some OSExt
      | BUInt8 | BUInt16 => Some OZExt
      | BInt32 | BUInt32 => Some ONone
      | BInt64 | BUInt64 => Some OTrunc
      | BHalf | BFloat | BDouble => Some OFPToSI
      end
  | BUInt32 => (* 7411-7464 *)
      match from with
      | BBool => Some OZExt
      | BInt1 | BInt8 | BInt16 => Some OSExt
      | BUInt8 | BUInt16 => Some OZExt
      | BInt32 | BUInt32 => Some ONone
      | BInt64 | BUInt64 => Some OTrunc
      | BHalf | BFloat | BDouble => Some OFPToUI
      end
  | BInt64 => (* 7465-7498 *)
      match from with
      | BBool => Some OZExt
      | BInt1 | BInt8 | BInt16 | BInt32 => Some OSExt
      | BUInt8 | BUInt16 | BUInt32 => Some OZExt
      | BInt64 | BUInt64 => Some ONone
      | BHalf | BFloat | BDouble => Some OFPToSI
      end
  | BUInt64 => (* 7499-7550 *)
      match from with
      | BBool => Some OZExt
      | BInt1 | BInt8 | BInt16 | BInt32 => Some OSExt
      | BUInt8 | BUInt16 | BUInt32 => Some OZExt
      | BInt64 | BUInt64 => Some ONone
      | BHalf | BFloat | BDouble => Some OFPToUI
      end
  | BBool => (* 7551-7587 *)
      match from with
      | BBool => Some ONone
      | BInt1 | BInt8 | BUInt8 | BInt16 | BUInt16 | BInt32 | BUInt32 | BInt64 | BUInt64 => Some OICmpNe
      | BHalf | BFloat | BDouble => Some OFCmpUne
      end
  end.

(** the element of targetType, 7045-7046: the size of an integer type, the format of a floating-point type *)
Definition size_of (t : basic) : option Z :=
  match t with
  | BInt1 => Some 1 | BInt8 | BUInt8 => Some 8 | BInt16 | BUInt16 => Some 16 | BInt32 | BUInt32 => Some 32
  | BInt64 | BUInt64 => Some 64 | _ => None
  end.
Definition format_of (t : basic) : option fty :=
  match t with BHalf => Some half | BFloat => Some single | BDouble => Some double | _ => None end.

Definition run_op (o : op) (to : basic) (v : sv) : option sv :=
  match o, size_of to, format_of to with
  | ONone, _, _ => Some v
  | OSExt, Some n, _ => i_sext n v
  | OZExt, Some n, _ => i_zext n v
  | OTrunc, Some n, _ => i_trunc n v
  | OFPToSI, Some n, _ => i_fptosi n v
  | OFPToUI, Some n, _ => i_fptoui n v
  | OSIToFP, _, Some t => i_sitofp t v
  | OUIToFP, _, Some t => i_uitofp t v
  | OFPCast, _, Some t => i_fpcast t v
  | OICmpNe, _, _ => i_ne0 v
  | OFCmpUne, _, _ => i_une0 v
  | _, _, _ => None
  end.

(** FunctionEmitContext::lSwitchBoolSize_2 (src/ctx.cpp:2530-2606), one element, to the mask type of [n] bits; [mb] is
    getMaskBitCount. *)
Definition switch_mask (mb n : Z) (v : sv) : option sv :=
  match v with
  | IV k b =>
      if (k =? n) && negb (mb =? 8) then Some v
      else match (if k =? 1 then Some v else i_ne0 v) with
           | Some i1 => if n =? 1 then Some i1 else i_sext n i1
           | None => None
           end
  | Poison => Some Poison
  | _ => None
  end.

(** The variability of an atomic type; SUVec: a uniform short vector (IsUniformType, not IsAtomicType). *)
Inductive shape := SUniform | SVarying | SUVec.
Definition is_varying (s : shape) : bool := match s with SVarying => true | _ => false end.

(** FunctionEmitContext::SmearUniform (src/ctx.cpp:1937-1968); a pointer becomes an integer of [pw] bits. *)
Definition smear (pw : Z) (W : nat) (v : lv) : option lv :=
  match v with
  | Sc (PV a) => Some (Vec (repeat (IV pw (wrapu pw a)) W))
  | Sc x => Some (Vec (repeat x W))
  | _ => None
  end.

Definition bind {A B} (x : option A) (f : A -> option B) : option B := match x with Some a => f a | None => None end.

(** lTypeConvAtomicOrUniformVector (src/expr.cpp:6979-7620) *)
Definition conv_atomic (mb pw : Z) (W : nat) (fs ts : shape) (from to : basic) (v : lv) : option lv :=
  let v := match from with
           | BBool => if is_varying fs then lift (switch_mask mb 1) v else Some v
           | _ => Some v
           end in
  let r := bind v (fun v => bind (choose to from) (fun o => lift (run_op o to) v)) in
  let r := match to with (* 7589-7604 *)
           | BBool =>
               if negb (is_varying fs)
               then (if is_varying ts && negb (mb =? 1) then bind r (lift (switch_mask mb mb)) else r)
               else bind r (lift (switch_mask mb mb))
           | _ => r
           end in
  (* 7613-7619 *)
  if is_varying ts && negb (is_varying fs) then bind r (smear pw W) else r.

(** TypeCastExpr::GetValue (src/expr.cpp:7707-8036), from and to basic types.  7820-7824: nothing to do for equal types. *)
Definition basic_eqb (a b : basic) : bool :=
  match a, b with
  | BBool, BBool | BInt1, BInt1 | BInt8, BInt8 | BUInt8, BUInt8 | BInt16, BInt16 | BUInt16, BUInt16 | BInt32, BInt32
  | BUInt32, BUInt32 | BInt64, BInt64 | BUInt64, BUInt64 | BHalf, BHalf | BFloat, BFloat | BDouble, BDouble => true
  | _, _ => false
  end.
Definition cast_basic (mb pw : Z) (W : nat) (fv tv : bool) (from to : basic) (v : lv) : option lv :=
  if basic_eqb from to && Bool.eqb fv tv then Some v
  else conv_atomic mb pw W (if fv then SVarying else SUniform) (if tv then SVarying else SUniform) from to v.

(** ExtractInst: an element of a vector or of an aggregate *)
Definition extract (v : lv) (i : nat) : option lv :=
  match v with
  | Vec l => option_map Sc (nth_error l i)
  | Agg l => nth_error l i
  | Sc _ => None
  end.

(** Short vectors of [n] elements, 7903-7942.  A uniform one is an LLVM vector (it may have more elements than [n],
    getVectorMemoryCount), a varying one an array of vectors. *)
Definition cast_vector (mb pw : Z) (W n : nat) (fv tv : bool) (from to : basic) (v : lv) : option lv :=
  if basic_eqb from to && Bool.eqb fv tv then Some v
  else if negb fv && negb tv then conv_atomic mb pw W SUVec SUVec from to v
  else
    let element i :=
      bind (extract v i) (fun x =>
      bind (conv_atomic mb pw W (if fv then SVarying else SUniform) (if tv then SVarying else SUniform) from to x) (fun c =>
      match to with BBool => lift (switch_mask mb mb) c | _ => Some c end)) in
    option_map Agg (mapM element (seq 0 n)).

(** A value of a basic type to a short vector, 7966-7996.  The uniform vector is broadcast to the type the vector has in
    memory, where a bool has 8 bits; BroadcastValue (src/ctx.cpp:3571) asserts that the element types are the same. *)
Definition type_bits (v : sv) : option Z := match v with IV n _ => Some n | _ => None end.
Definition cast_splat (mb pw : Z) (W n mem : nat) (fv tv : bool) (from to : basic) (v : lv) : option lv :=
  bind (conv_atomic mb pw W (if fv then SVarying else SUniform) (if tv then SVarying else SUniform) from to v) (fun c =>
  if tv then
    bind (match to with BBool => lift (switch_mask mb mb) c | _ => Some c end) (fun c => Some (Agg (repeat c n)))
  else
    match c with
    | Sc (IV k b) => match to with BBool => if k =? 8 then Some (Vec (repeat (IV k b) mem)) else None
                                 | _ => Some (Vec (repeat (IV k b) mem)) end
    | Sc x => Some (Vec (repeat x mem))
    | _ => None
    end).

(** ** Enumerations: values are of 32 bits, 7951-7958 *)
Definition enum_basic : basic := BUInt32.
(** lFinalizeEnumeratorSymbols (src/parse.yy:3811-3855): the values of the enumerators; Some z: "= z" was written *)
Fixpoint enum_values (next : Z) (l : list (option Z)) : list Z :=
  match l with
  | [] => []
  | Some z :: l => let u := wrapu 32 z in u :: enum_values (wrapu 32 (u + 1)) l
  | None :: l => next :: enum_values (wrapu 32 (next + 1)) l
  end.

(** ** Pointers of [pw] bits.  A varying pointer is a vector of integers. *)
(** FunctionEmitContext::PtrToIntInst (src/ctx.cpp:2000-2025) *)
Definition ptr_to_int_inst (pw n : Z) (v : lv) : option lv :=
  match v with
  | Sc (PV a) => Some (Sc (IV n (wrapu n a)))
  | Vec _ => if n =? pw then Some v else if n <? pw then lift (i_trunc n) v else lift (i_zext n) v
  | _ => None
  end.
(** FunctionEmitContext::IntToPtrInst (src/ctx.cpp:2027-2054); [n]: the bits of the integer type *)
Definition int_to_ptr_inst (pw n : Z) (v : lv) : option lv :=
  match v with
  | Sc (IV k b) => Some (Sc (PV (wrapu pw b)))
  | Vec _ => if n =? pw then Some v else if pw <? n then lift (i_trunc pw) v else lift (i_zext pw) v
  | _ => None
  end.
(** 7785-7816, not a slice pointer *)
Definition cast_ptr_int (pw : Z) (W : nat) (fv tv : bool) (to : basic) (v : lv) : option lv :=
  bind (size_of to) (fun n =>
  bind (if tv && negb fv then smear pw W v else Some v) (ptr_to_int_inst pw n)).
(** 7997-8009 *)
Definition cast_int_ptr (pw : Z) (W : nat) (fv tv : bool) (from : basic) (v : lv) : option lv :=
  bind (size_of from) (fun n =>
  bind (if tv && negb fv then smear pw W v else Some v) (int_to_ptr_inst pw n)).
(** 7764-7784; the null pointer is address 0 *)
Definition p_ne0 (v : sv) : option sv := match v with PV a => Some (bit (negb (a =? 0))) | v => i_ne0 v end.
Definition cast_ptr_bool (mb pw : Z) (W : nat) (fv tv : bool) (v : lv) : option lv :=
  bind (lift p_ne0 v) (fun c =>
  if tv then bind (if fv then Some c else smear pw W c) (lift (switch_mask mb mb)) else Some c).
(** 7738-7762, not slice pointers: a uniform pointer to a varying one *)
Definition cast_ptr_ptr (pw : Z) (W : nat) (fv tv : bool) (v : lv) : option lv :=
  if tv && negb fv then smear pw W v else Some v.

(** ** Structures: from uniform to varying *)
(** Types of members; a member of a structure may be declared uniform ([SBound]). *)
Inductive sty :=
| SBasic (t : basic)
| SPtr
| SVecOf (n : nat) (t : basic)
| SArr (n : nat) (t : sty)
| SStruct (members : list (bool * sty)).

(** one element that is a basic value in memory form: 7649-7662 *)
Definition element_to_varying (mb pw : Z) (W : nat) (t : basic) (v : lv) : option lv :=
  match t with
  | BBool =>
      bind (lift (i_trunc 1) v) (fun v =>
      bind (conv_atomic mb pw W SUniform SVarying BBool BBool v) (fun v =>
      (* SwitchBoolToStorageType *)
      lift (fun x => match x with
                     | IV k b => bind (if k =? 1 then Some x else i_ne0 x) (i_zext 8)
                     | x => Some x
                     end) v))
  | t => conv_atomic mb pw W SUniform SVarying t t v
  end.
(** lUniformValueToVarying (src/expr.cpp:7626-7675).  [bound]: a structure's member that is uniform is kept. *)
Fixpoint to_varying (mb pw : Z) (W : nat) (t : sty) (v : lv) : option lv :=
  match t with
  | SBasic b => element_to_varying mb pw W b v
  | SPtr => smear pw W v
  | SVecOf n b => option_map Agg (mapM (fun i => bind (extract v i) (element_to_varying mb pw W b)) (seq 0 n))
  | SArr n t => option_map Agg (mapM (fun i => bind (extract v i) (to_varying mb pw W t)) (seq 0 n))
  | SStruct ms =>
      option_map Agg
        ((fix members i ms :=
            match ms with
            | [] => Some []
            | (bound, t) :: ms =>
                match bind (extract v i) (if bound : bool then Some else to_varying mb pw W t), members (S i) ms with
                | Some x, Some r => Some (x :: r)
                | _, _ => None
                end
            end) 0%nat ms)
  end.
