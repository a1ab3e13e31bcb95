(** Model of the analyses of vector index expressions
    (/repo/src/llvmutil.cpp) and of the decomposition of gather and scatter
    addresses (/repo/src/opt/ImproveMemoryOps.cpp).

    LLVM values are expression trees; a PHI node is a leaf that carries a
    number, and a program gives, for each number, the incoming values.  Two
    instructions that are built the same way from the same leaves are the same
    tree, so "the same llvm::Value" is equality of trees. *)

From Coq Require Import ZArith List Bool Lia.
From Verif Require Import Bits.
Import ListNotations.
Open Scope Z_scope.

(** LLVM binary operators that the code distinguishes.  [Or d]: [d] is what
    IsOrEquivalentToAdd answers for this instruction (llvmutil.cpp 1189-1214:
    LLVM's own bit analysis or the disjoint flag, both taken as given).
    [OtherOp k] stands for every other opcode. *)
Inductive bop :=
| Add | Or (disjoint : bool) | Sub | Mul | Shl | AShr | LShr | And | SDiv
| OtherOp (k : nat).

(** llvm::CastInst opcodes; [OtherCast k]: any other (fptosi, sitofp, ...). *)
Inductive cast := Trunc | SExt | ZExt | OtherCast (k : nat).

(** What kind of instruction an opaque value is: the code only asks for
    ptrtoint and load (ImproveMemoryOps.cpp 25-55). *)
Inductive kind := KPtrToInt | KLoad | KOther.

(** Elements of a ConstantVector: the address of a global, that address plus
    an integer (in both orders), an integer, undef/poison. *)
Inductive celt :=
| EPtr (n : nat) | EPtrAdd (n : nat) (d : Z) | EAddPtr (d : Z) (n : nat)
| EInt (z : Z) | EUndef.

(** LLVM values.  [w] is the width in bits of an element.  Simplifications:
    a shuffle has one operand (the second one undef) and a constant mask
    without undef entries; extractvalue/insertvalue are left out. *)
Inductive exp :=
| Zero (w : Z)                               (* ConstantAggregateZero *)
| Data (w : Z) (l : list Z)                  (* ConstantDataVector, elements as
                                                numbers in [0, 2^w) *)
| CVec (w : Z) (l : list celt)               (* ConstantVector *)
| SInt (w : Z) (z : Z)                       (* scalar ConstantInt *)
| Undef (w : Z)                              (* undef / poison vector *)
| Bin (o : bop) (nsw : bool) (w : Z) (a b : exp)
| Cast (c : cast) (w : Z) (a : exp)
| Insert (a s : exp) (i : nat)               (* insertelement a, s, i *)
| Shuf (a : exp) (m : list nat)              (* shufflevector a, undef, m *)
| Phi (vec : bool) (w : Z) (n : nat)
| Leaf (vec : bool) (k : kind) (w : Z) (n : nat). (* load, call, argument, ... *)

(** Incoming values of each PHI node. *)
Definition prog := nat -> list exp.

(** ** What the expressions compute *)

(** Values of the PHI nodes ([None]: not executed yet), of the opaque values
    and of the operations the code does not look into. *)
Record env := mkEnv {
  e_phi : nat -> option (nat -> Z);
  e_leaf : nat -> nat -> Z;
  e_undef : nat -> Z;
  e_op : nat -> Z -> Z -> Z;
  e_cast : nat -> Z -> Z }.

Fixpoint width (e : exp) : Z :=
  match e with
  | Zero w | Data w _ | CVec w _ | SInt w _ | Undef w => w
  | Bin _ _ w _ _ => w
  | Cast _ w _ => w
  | Insert a _ _ => width a
  | Shuf a _ => width a
  | Phi _ w _ => w
  | Leaf _ _ w _ => w
  end.

(** LLVM's integer operations on one lane, operands and result in [0, 2^w).
    Overflow wraps; a [nsw] operation that overflows is recorded by
    [overflows] below. *)
Definition bop_val (r : env) (o : bop) (w x y : Z) : Z :=
  wrapu w (match o with
           | Add => x + y
           | Or _ => Z.lor x y
           | Sub => x - y
           | Mul => x * y
           | Shl => x * 2 ^ y
           | AShr => wraps w x / 2 ^ y
           | LShr => x / 2 ^ y
           | And => Z.land x y
           | SDiv => Z.quot (wraps w x) (wraps w y)
           | OtherOp k => e_op r k x y
           end).

Definition cast_val (r : env) (c : cast) (from to x : Z) : Z :=
  wrapu to (match c with
            | Trunc => x
            | SExt => wraps from x
            | ZExt => x
            | OtherCast k => e_cast r k x
            end).

Definition celt_val (r : env) (w : Z) (c : celt) (lane : nat) : Z :=
  wrapu w (match c with
           | EPtr n => wrapu w (e_leaf r n 0%nat)
           | EPtrAdd n d | EAddPtr d n => wrapu w (e_leaf r n 0%nat) + wrapu w d
           | EInt z => z
           | EUndef => e_undef r lane
           end).

Fixpoint eval (r : env) (e : exp) (lane : nat) : Z :=
  match e with
  | Zero _ => 0
  | Data w l => wrapu w (nth lane l 0)
  | CVec w l => celt_val r w (nth lane l EUndef) lane
  | SInt w z => wrapu w z
  | Undef w => wrapu w (e_undef r lane)
  | Bin o _ w a b => bop_val r o w (eval r a lane) (eval r b lane)
  | Cast c w a => cast_val r c (width a) w (eval r a lane)
  | Insert a s i => if Nat.eqb lane i then eval r s lane else eval r a lane
  | Shuf a m => eval r a (nth lane m 0%nat)
  | Phi vec w n =>
      match e_phi r n with
      | Some f => wrapu w (f (if vec then lane else 0%nat))
      | None => 0
      end
  | Leaf vec _ w n => wrapu w (e_leaf r n (if vec then lane else 0%nat))
  end.

(** Does the evaluation of lane [lane] meet a [nsw] operation whose signed
    result does not fit (LLVM: the result is poison)? *)
Definition nsw_fits (o : bop) (w x y : Z) : bool :=
  let s := match o with
           | Add => wraps w x + wraps w y
           | Sub => wraps w x - wraps w y
           | Mul => wraps w x * wraps w y
           | Shl => wraps w x * 2 ^ y
           | _ => 0
           end in
  (- 2 ^ (w - 1) <=? s) && (s <? 2 ^ (w - 1)).

Fixpoint overflows (r : env) (e : exp) (lane : nat) : bool :=
  match e with
  | Bin o nsw w a b =>
      overflows r a lane || overflows r b lane ||
      (nsw && negb (nsw_fits o w (eval r a lane) (eval r b lane)))
  | Cast _ _ a => overflows r a lane
  | Insert a s i => if Nat.eqb lane i then overflows r s lane else overflows r a lane
  | Shuf a m => overflows r a (nth lane m 0%nat)
  | _ => false
  end.

(** ** llvmutil.cpp: comparing values *)

(** Opcodes are compared without their flags (571, 583). *)
Definition bop_eqb (a b : bop) : bool :=
  match a, b with
  | Add, Add | Or _, Or _ | Sub, Sub | Mul, Mul | Shl, Shl
  | AShr, AShr | LShr, LShr | And, And | SDiv, SDiv => true
  | OtherOp i, OtherOp j => Nat.eqb i j
  | _, _ => false
  end.

Definition cast_eqb (a b : cast) : bool :=
  match a, b with
  | Trunc, Trunc | SExt, SExt | ZExt, ZExt => true
  | OtherCast i, OtherCast j => Nat.eqb i j
  | _, _ => false
  end.

Definition kind_eqb (a b : kind) : bool :=
  match a, b with
  | KPtrToInt, KPtrToInt | KLoad, KLoad | KOther, KOther => true
  | _, _ => false
  end.

Definition celt_eqb (a b : celt) : bool :=
  match a, b with
  | EPtr n, EPtr m => Nat.eqb n m
  | EPtrAdd n d, EPtrAdd m d' => Nat.eqb n m && (d =? d')
  | EAddPtr d n, EAddPtr d' m => Nat.eqb n m && (d =? d')
  | EInt z, EInt z' => z =? z'
  | EUndef, EUndef => true
  | _, _ => false
  end.

Fixpoint list_eqb {A} (eqb : A -> A -> bool) (a b : list A) : bool :=
  match a, b with
  | [], [] => true
  | x :: a', y :: b' => eqb x y && list_eqb eqb a' b'
  | _, _ => false
  end.

(** lValuesAreEqual, llvmutil.cpp 542-610.  The types of casts are not
    compared (579-587).  Simplification: two different PHI nodes are never
    found equal (589-606 compares their incoming values). *)
Fixpoint values_equal (a b : exp) : bool :=
  match a, b with
  | Zero w, Zero w' => w =? w'
  | Data w l, Data w' l' => (w =? w') && list_eqb Z.eqb l l'
  | CVec w l, CVec w' l' => (w =? w') && list_eqb celt_eqb l l'
  | SInt w z, SInt w' z' => (w =? w') && (z =? z')
  | Undef w, Undef w' => w =? w'
  | Bin o _ _ x y, Bin o' _ _ x' y' =>
      bop_eqb o o' && values_equal x x' && values_equal y y'
  | Cast c _ x, Cast c' _ x' => cast_eqb c c' && values_equal x x'
  | Insert x s i, Insert x' s' i' =>
      values_equal x x' && values_equal s s' && Nat.eqb i i'
  | Shuf x m, Shuf x' m' => values_equal x x' && list_eqb Nat.eqb m m'
  | Phi v w n, Phi v' w' n' => Bool.eqb v v' && (w =? w') && Nat.eqb n n'
  | Leaf v k w n, Leaf v' k' w' n' =>
      Bool.eqb v v' && kind_eqb k k' && (w =? w') && Nat.eqb n n'
  | _, _ => false
  end.

(** An element of a ConstantVector as a scalar value. *)
Definition celt_exp (w : Z) (c : celt) : exp :=
  match c with
  | EPtr n => Leaf false KPtrToInt w n
  | EPtrAdd n d => Bin Add false w (Leaf false KPtrToInt w n) (SInt w d)
  | EAddPtr d n => Bin Add false w (SInt w d) (Leaf false KPtrToInt w n)
  | EInt z => SInt w z
  | EUndef => Undef w
  end.

(** Constant::getSplatValue, without undef elements. *)
Definition splat_of {A} (eqb : A -> A -> bool) (l : list A) : option A :=
  match l with
  | [] => None
  | x :: l' => if forallb (eqb x) l' then Some x else None
  end.

(** Is the operation an add, or an or that IsOrEquivalentToAdd accepts? *)
Definition is_add (o : bop) : bool :=
  match o with Add => true | Or d => d | _ => false end.

(** lIsFirstElementConstVector, llvmutil.cpp 614-641 (not for Xe targets). *)
Definition first_const (e : exp) : bool :=
  match e with
  | CVec _ (_ :: l) => forallb (fun c => match c with EUndef => true | _ => false end) l
  | _ => false
  end.

(** A shuffle mask that is a ConstantAggregateZero. *)
Definition zero_mask (m : list nat) : bool := forallb (Nat.eqb 0) m.

Fixpoint set_nth {A} (l : list A) (i : nat) (x : A) : list A :=
  match l, i with
  | [], _ => []
  | _ :: l', O => x :: l'
  | y :: l', S j => y :: set_nth l' j x
  end.

(** The loop over a chain of insertelement instructions, llvmutil.cpp
    648-692 with compare = true: the elements of the outermost instructions
    win.  Ending in a ConstantAggregateZero fails the assertion on line 679
    (it has no operands), which is counted as no result here. *)
Fixpoint chain (e : exp) (els : list (option exp)) : option (list (option exp)) :=
  match e with
  | Insert a s i =>
      let els' := match nth i els None with
                  | None => set_nth els i (Some s)
                  | Some _ => els
                  end in
      match a with
      | Insert _ _ _ => chain a els'
      | Undef _ => Some els'
      | CVec w l =>
          Some (map (fun p => match fst p with
                              | Some x => Some x
                              | None => Some (celt_exp w (snd p))
                              end) (combine els' l))
      | _ => None
      end
  | _ => None
  end.

(** The last element that is there (NonNull, 697-703). *)
Fixpoint last_some {A} (l : list (option A)) : option A :=
  match l with
  | [] => None
  | x :: l' => match last_some l' with Some y => Some y | None => x end
  end.

Definition is_some {A} (o : option A) : bool :=
  match o with Some _ => true | None => false end.

(** LLVMFlattenInsertChain, llvmutil.cpp 643-774, with compare = true. *)
Definition flatten (n : nat) (undef first : bool) (e : exp) : option exp :=
  match e with
  | Insert _ _ _ =>
      match chain e (repeat None n) with
      | None => None
      | Some els =>
          match last_some els with
          | None => None
          | Some x =>
              if negb undef && negb (forallb is_some els) then None
              else if forallb (fun o => match o with
                                        | None => true
                                        | Some y => values_equal x y
                                        end) els
                   then Some x else None
          end
      end
  | Shuf op m =>
      if zero_mask m then
        let ie := match op with
                  | Insert _ _ _ => Some op
                  | Bin o _ _ a b =>
                      if first && is_add o then
                        if first_const b then
                          match a with Insert _ _ _ => Some a | _ => None end
                        else match b with Insert _ _ _ => Some b | _ => None end
                      else None
                  | _ => None
                  end in
        match ie with
        | Some (Insert (Undef _) s O) => Some s
        | _ => None
        end
      else None
  | _ => None
  end.

(** LLVMExtractVectorInts, llvmutil.cpp 776-800: the elements as int64_t, from
    zero-extended values (796). *)
Definition ints (n : nat) (e : exp) : option (list Z) :=
  match e with
  | Zero _ => Some (repeat 0 n)
  | Data w l => Some (map (fun x => wraps 64 (wrapu w x)) l)
  | _ => None
  end.

(** ** llvmutil.cpp: equal and linear vectors *)

(** What is being established about a PHI node when it is put on the list of
    PHI nodes seen.  The code keeps only the node. *)
Inductive tag := TEq | TDiv (base : Z) | TLin (stride : Z).

Definition tag_eqb (a b : tag) : bool :=
  match a, b with
  | TEq, TEq => true
  | TDiv x, TDiv y => x =? y
  | TLin x, TLin y => x =? y
  | _, _ => false
  end.

(** Is the PHI node on the list?  [strict = false] is the code; with [strict]
    only entries made for the same purpose count. *)
Definition in_seen (strict : bool) (t : tag) (p : nat) (seen : list (tag * nat)) : bool :=
  existsb (fun q => Nat.eqb (snd q) p && (negb strict || tag_eqb (fst q) t)) seen.

(** lRoundUpPow2, llvmutil.cpp 872-880, on 32-bit int. *)
Definition round_up_pow2 (v : Z) : Z :=
  if v <=? 0 then 0 else 2 ^ Z.log2_up v.

Definition all_quot_equal (b : Z) (l : list Z) : bool :=
  match l with
  | [] => true
  | x :: l' => forallb (fun y => Z.quot y b =? Z.quot x b) l'
  end.

(** maxMod, 985-988: an int. *)
Definition max_mod (b : Z) (l : list Z) : Z :=
  match l with
  | [] => 0
  | x :: l' =>
      fold_left (fun m y => Z.max m (wraps 32 (Z.rem y b))) l' (wraps 32 (Z.rem x b))
  end.

(** An integer constant splatted over all lanes, as lCheckMulForLinear and
    lCheckShlForLinear ask for it (1265-1279): sign-extended. *)
Definition int_splat (e : exp) : option Z :=
  match e with
  | Zero _ => Some 0
  | Data w l => option_map (wraps w) (splat_of Z.eqb l)
  | CVec w l => match splat_of celt_eqb l with
                | Some (EInt z) => Some (wraps w z)
                | _ => None
                end
  | _ => None
  end.

(** lVectorIsLinearConstantInts, 1223-1255. *)
Fixpoint linear_ints (stride : Z) (l : list Z) : bool :=
  match l with
  | x :: (y :: _) as l' => (x + stride =? y) && linear_ints stride l'
  | _ => true
  end.

Definition pow2_or_zero (z : Z) : bool := Z.land z (z - 1) =? 0.

Section Analyses.

Variable n : nat.           (* vectorLength *)
Variable P : prog.
Variable strict : bool.

(** lVectorValuesAllEqual (1045-1165) with lVectorShiftRightAllEqual
    (1019-1043) inlined, lAllDivBaseEqual (889-1012) and lIsExactMultiple
    (811-868).  The recursion goes round loops of PHI nodes until it meets one
    it has seen; [f] bounds its depth, and running out of it gives [false].
    Calls that fail an assertion end the compilation; they give [false].
    canAdd (890) is true whenever it is tested: it is only cleared (966) right
    before the last call. *)
Fixpoint all_equal (f : nat) (e : exp) (seen : list (tag * nat)) : bool :=
  match f with
  | O => false
  | S f =>
    if Nat.eqb n 1 then true
    else match e with
    | Zero _ => true
    | CVec _ l => is_some (splat_of celt_eqb l)
                  && negb (existsb (fun c => match c with EUndef => true | _ => false end) l)
    | Data _ l => is_some (splat_of Z.eqb l)
    | Bin o _ _ a b =>
        (all_equal f a seen && all_equal f b seen) ||
        (match o with
         | AShr | LShr =>
             match ints n b with
             | Some (k :: ks) =>
                 forallb (Z.eqb k) ks && (0 <=? k) && (k <=? 30)
                 && all_div f (2 ^ k) a []
             | _ => false
             end
         | _ => false
         end)
    | Cast _ _ a => all_equal f a seen
    | Insert _ _ _ => is_some (flatten n true false e)
    | Phi _ _ p =>
        in_seen strict TEq p seen ||
        forallb (fun i => all_equal f i ((TEq, p) :: seen)) (P p)
    | Shuf _ m => is_some (splat_of Nat.eqb m)
    | SInt _ _ | Undef _ | Leaf _ _ _ _ => false
    end
  end

with all_div (f : nat) (base : Z) (e : exp) (seen : list (tag * nat)) : bool :=
  match f with
  | O => false
  | S f =>
    all_equal f e seen ||
    match ints n e with
    | Some l => all_quot_equal base l
    | None =>
        match e with
        | Phi _ _ p =>
            in_seen strict (TDiv base) p seen ||
            forallb (fun i => all_div f base i ((TDiv base, p) :: seen)) (P p)
        | Bin o _ _ a b =>
            if is_add o then
              match ints n b with
              | Some l =>
                  all_quot_equal base l && all_equal f a seen
                  && is_multiple f (round_up_pow2 (max_mod base l)) a []
              | None => false
              end
            else false
        | _ => false
        end
    end
  end

with is_multiple (f : nat) (base : Z) (e : exp) (seen : list nat) : bool :=
  match f with
  | O => false
  | S f =>
    (0 <? base) &&
    match e with
    | SInt w z => wrapu w z mod base =? 0
    | Insert _ _ _ | Shuf _ _ =>
        all_equal f e [] &&
        match flatten n true false e with
        | Some x => is_multiple f base x seen
        | None => false
        end
    | Phi vec _ p =>
        (if vec then all_equal f e [] else true) &&
        (existsb (Nat.eqb p) seen ||
         forallb (fun i => is_multiple f base i (p :: seen)) (P p))
    | Bin o _ _ a b =>
        is_add o && is_multiple f base a seen && is_multiple f base b seen
    | _ => false
    end
  end.

(** lVectorIsLinear (1377-1488) with lCheckMulForLinear (1261-1292),
    lCheckShlForLinear (1297-1334) and lCheckAndForLinear (1341-1375) inlined. *)
Fixpoint is_linear (f : nat) (stride : Z) (e : exp) (seen : list (tag * nat)) : bool :=
  match f with
  | O => false
  | S f =>
    let check_mul x y :=
      match int_splat x with
      | Some s =>
          negb (s =? 0) && negb (Z.abs stride <? s) && (Z.rem (Z.abs stride) s =? 0)
          && is_linear f (Z.quot stride s) y seen
      | None => false
      end in
    match e with
    | Data w l => linear_ints stride (map (wraps w) l)
    | Bin o _ _ a b =>
        if is_add o then
          (is_linear f stride a seen && all_equal f b seen) ||
          (all_equal f a seen && is_linear f stride b seen)
        else match o with
        | Sub =>
            (is_linear f stride a seen && all_equal f b seen) ||
            (all_equal f a seen && is_linear f (- stride) b seen)
        | Mul => check_mul a b || check_mul b a
        | Shl =>
            match int_splat b with
            | Some k =>
                (0 <=? k) && (k <? 63) && negb (Z.abs stride <? 2 ^ k)
                && (Z.rem (Z.abs stride) (2 ^ k) =? 0)
                && is_linear f (Z.quot stride (2 ^ k)) a seen
            | None => false
            end
        | And =>
            match ints n b with
            | Some (m :: ms) =>
                forallb (Z.eqb m) ms && pow2_or_zero (m + 1) && (0 <? m + 1)
                && is_linear f stride a seen && all_div f (m + 1) a seen
            | _ => false
            end
        | _ => false
        end
    | Cast _ _ a => is_linear f stride a seen
    | Phi _ _ p =>
        in_seen strict (TLin stride) p seen ||
        forallb (fun i => is_linear f stride i ((TLin stride, p) :: seen)) (P p)
    | _ => false
    end
  end.

End Analyses.

(** LLVMVectorValuesAllEqual (1172-1186) and LLVMVectorIsLinear (1495-1508). *)
Definition vector_all_equal (n : nat) (P : prog) (f : nat) (e : exp) : bool :=
  all_equal n P false f e [].

Definition vector_is_linear (n : nat) (P : prog) (f : nat) (stride : Z) (e : exp) : bool :=
  is_linear n P false f stride e [].

(** ** ImproveMemoryOps.cpp: base pointers, constant parts, scales *)

(** lCheckForActualPointer, 25-55 (all values are integers here). *)
Fixpoint actual_pointer (e : exp) : bool :=
  match e with
  | Leaf _ KPtrToInt _ _ | Leaf _ KLoad _ _ => true
  | Cast _ _ a => actual_pointer a
  | _ => false
  end.

Definition checked (o : option exp) : option exp :=
  match o with
  | Some e => if actual_pointer e then Some e else None
  | None => None
  end.

(** lGetBasePointer, 63-99. *)
Fixpoint base_pointer (n : nat) (first : bool) (e : exp) : option exp :=
  match e with
  | Insert _ _ _ | Shuf _ _ => checked (flatten n false first e)
  | CVec w l => checked (option_map (celt_exp w) (splat_of celt_eqb l))
  | Cast c w a => option_map (Cast c w) (base_pointer n first a)
  | _ => None
  end.

(** The element of a ConstantVector as base pointer and offset, 257-275 with
    lGetConstantAddExprBaseOffset, 104-119. *)
Definition celt_split (c : celt) : option (nat * Z) :=
  match c with
  | EPtr n => Some (n, 0)
  | EPtrAdd n d | EAddPtr d n => Some (n, d)
  | _ => None
  end.

Fixpoint celts_split (l : list celt) : option (list (nat * Z)) :=
  match l with
  | [] => Some []
  | c :: l' =>
      match celt_split c, celts_split l' with
      | Some p, Some ps => Some (p :: ps)
      | _, _ => None
      end
  end.

(** ConstantVector::get of integers. *)
Definition mk_const (w : Z) (l : list Z) : exp :=
  let l' := map (wrapu w) l in
  if forallb (Z.eqb 0) l' then Zero w else Data w l'.

(** lGetBasePtrAndOffsets, 140-306; [aw] is the width of a pointer. *)
Fixpoint base_offsets (n : nat) (aw : Z) (e : exp) : option (exp * exp) :=
  let bc := match e with Shuf _ m => zero_mask m | _ => false end in
  match base_pointer n bc e with
  | Some b =>
      match e with
      | Shuf (Bin o _ w x y) m =>
          if zero_mask m && is_add o then
            match y with
            | CVec _ _ => Some (b, Bin Add false aw (Zero aw) (Shuf y (repeat 0%nat n)))
            | _ => match x with
                   | Bin _ _ _ _ _ => Some (b, Bin Add false aw (Zero aw) (Shuf x (repeat 0%nat n)))
                   | _ => None
                   end
            end
          else Some (b, Zero aw)
      | _ => Some (b, Zero aw)
      end
  | None =>
      match e with
      | Bin o _ w x y =>
          if is_add o then
            match base_offsets n aw x with
            | Some (b, off) => Some (b, Bin Add false aw off y)
            | None =>
                match base_offsets n aw y with
                | Some (b, off) => Some (b, Bin Add false aw off x)
                | None => None
                end
            end
          else None
      | CVec w l =>
          match celts_split l with
          | Some ((g, d) :: ps) =>
              if forallb (fun p => Nat.eqb (fst p) g) ps
              then Some (Leaf false KPtrToInt w g, mk_const w (d :: map snd ps))
              else None
          | _ => None
          end
      | _ => None
      end
  end.

Definition is_zero (o : option exp) : bool :=
  match o with None => true | Some (Zero _) => true | _ => false end.

(** The sum of two parts when one of them may be missing (345-365). *)
Definition add_parts (w : Z) (x y : option exp) : option exp :=
  if is_zero x then y
  else if is_zero y then x
       else match x, y with
            | Some a, Some b => Some (Bin Add false w a b)
            | _, _ => None
            end.

Definition mul_parts (w : Z) (x y : option exp) : option exp :=
  match x, y with
  | Some a, Some b => Some (Bin Mul false w a b)
  | _, _ => None
  end.

(** The sums on 441-464: missing parts are skipped, zero ones are not. *)
Definition plus_parts (w : Z) (x y : option exp) : option exp :=
  match x, y with
  | Some a, Some b => Some (Bin Add false w a b)
  | Some a, None => Some a
  | None, _ => y
  end.

(** lExtractConstantOffset, 318-474: (constant part, variable part).
    [wrap]: --wrap-signed-int. *)
Fixpoint split_const (wrap : bool) (e : exp) : option exp * option exp :=
  match e with
  | Zero _ | Data _ _ | CVec _ _ => (Some e, None)
  | Cast c w a =>
      let '(co, vo) := split_const wrap a in
      (option_map (Cast c w) co, option_map (Cast c w) vo)
  | Bin o nsw w a b =>
      let '(c0, v0) := split_const wrap a in
      let '(c1, v1) := split_const wrap b in
      if is_add o then (add_parts w c0 c1, add_parts w v0 v1)
      else match o with
      | Shl =>
          match v1, c0, c1 with
          | None, Some c0', Some c1' =>
              match v0 with
              | None => (Some e, None)
              | Some v0' => (Some (Bin Shl false w c0' c1'),
                             Some (Bin Shl (if wrap then false else nsw) w v0' c1'))
              end
          | _, _, _ => (None, Some e)
          end
      | Mul =>
          (mul_parts w c0 c1,
           plus_parts w (plus_parts w (mul_parts w v0 c1) (mul_parts w c0 v1))
                        (mul_parts w v0 v1))
      | _ => (None, Some e)
      end
  | _ => (None, Some e)
  end.

(** lIsIntegerSplat, 479-498: the splat value cast to int. *)
Definition data_splat (e : exp) : option Z :=
  match e with
  | Data w l => option_map (fun x => wraps 32 (wraps w x)) (splat_of Z.eqb l)
  | _ => None
  end.

(** lExtract248Scale, 500-526: scale and the new *result ([e] if unchanged). *)
Definition extract_248 (n : nat) (e splat_op : exp) (s : Z) (other : exp) : Z * exp :=
  let w := width splat_op in
  let divided k :=
    Bin Mul false w (Bin SDiv false w splat_op (Data w (repeat k n))) other in
  if (s =? 2) || (s =? 4) || (s =? 8) then (s, other)
  else if Z.rem s 8 =? 0 then (8, divided 8)
  else if Z.rem s 4 =? 0 then (4, divided 4)
  else if Z.rem s 2 =? 0 then (2, divided 2)
  else (1, e).

(** lExtractOffsetVector248Scale, 543-598. *)
Fixpoint extract_scale (n : nat) (e : exp) : Z * exp :=
  match e with
  | Cast c w a => let '(s, a') := extract_scale n a in (s, Cast c w a')
  | Bin o _ w a b =>
      if is_add o then
        match a, b with
        | Zero _, _ => extract_scale n b
        | _, Zero _ => extract_scale n a
        | _, _ =>
            let '(s0, a') := extract_scale n a in
            let '(s1, b') := extract_scale n b in
            if s0 =? s1 then (s0, Bin Add false w a' b') else (1, e)
        end
      else match o with
      | Mul =>
          match data_splat a with
          | Some s => extract_248 n e a s b
          | None =>
              match data_splat b with
              | Some s => extract_248 n e b s a
              | None => (1, e)
              end
          end
      | _ => (1, e)
      end
  | _ => (1, e)
  end.

(** lVectorIs32BitInts, 600-616. *)
Definition is_32bit_ints (n : nat) (e : exp) : bool :=
  match ints n e with
  | Some l => forallb (fun x => wraps 32 x =? x) l
  | None => false
  end.

(** lOffsets32BitSafe for a variable and a constant part, 619-671. *)
Definition offsets_32bit (n : nat) (v c : exp) : option (exp * exp) :=
  let c' := if width c =? 32 then c else Cast Trunc 32 c in
  if width v =? 32 then Some (v, c')
  else match v with
  | Cast ZExt _ a | Cast SExt _ a =>
      if width a =? 32 then Some (a, c') else None
  | Cast _ _ _ => None
  | _ => if is_32bit_ints n v then Some (Cast Trunc 32 v, c') else None
  end.

(** lIs32BitSafeHelper, 679-692. *)
Fixpoint is_32bit_safe (n : nat) (e : exp) : bool :=
  match e with
  | Bin o _ _ a b => is_add o && is_32bit_safe n a && is_32bit_safe n b
  | Cast SExt _ a => width a =? 32
  | _ => is_32bit_ints n e
  end.

(** lOffsets32BitSafe for one vector, 696-723. *)
Definition offsets_32bit_one (n : nat) (e : exp) : option exp :=
  if width e =? 32 then Some e
  else match e with
  | Cast SExt _ a =>
      if width a =? 32 then Some a
      else if is_32bit_safe n e then Some (Cast Trunc 32 e) else None
  | _ => if is_32bit_safe n e then Some (Cast Trunc 32 e) else None
  end.

(** A gather or scatter call after lGSToGSBaseOffsets (778-990): base pointer,
    varying offsets, scale, constant offsets.  The calls for native gathers and
    scatters have no constant part; zero stands for it. *)
Record call := mkCall {
  c_base : exp; c_var : exp; c_scale : Z; c_const : exp }.

Definition part (w : Z) (o : option exp) : exp :=
  match o with Some e => e | None => Zero w end.

Definition to_base_offsets (n : nat) (aw : Z) (native force32 wrap : bool) (ptrs : exp)
  : option call :=
  match base_offsets n aw ptrs with
  | None => None
  | Some (b, off) =>
      if native then
        let '(s, v) := extract_scale n off in
        let v' := if force32 then
                    match offsets_32bit_one n v with Some x => x | None => v end
                  else v in
        Some (mkCall b v' s (Zero (width v')))
      else
        let '(co, vo) := split_const wrap off in
        let c := part (width off) co in
        let '(s, v) := extract_scale n (part (width off) vo) in
        match (if force32 then offsets_32bit n v c else None) with
        | Some (v', c') => Some (mkCall b v' s c')
        | None => Some (mkCall b v s c)
        end
  end.

(** lGSBaseOffsetsGetMoreConst, 999-1135, for the factored calls. *)
Definition get_more_const (n : nat) (wrap : bool) (k : call) : call :=
  match c_var k with
  | Zero _ => k
  | v =>
      match split_const wrap v with
      | (None, _) => k
      | (Some co, vo) =>
          let w := width v in
          mkCall (c_base k) (part w vo) (c_scale k)
                 (Bin Add false w (Bin Mul false w co (Data w (repeat (c_scale k) n)))
                      (c_const k))
      end
  end.

(** The address of one lane, as the gathers compute it
    (/repo/builtins/util.m4 7288-7331, 32- and 64-bit offsets, on a 64-bit
    target): offsets are sign-extended, scaled and added in 64 bits. *)
Definition call_addr (r : env) (k : call) (lane : nat) : Z :=
  wrapu 64 (eval r (c_base k) lane
            + wraps (width (c_var k)) (eval r (c_var k) lane) * c_scale k
            + wraps (width (c_const k)) (eval r (c_const k) lane)).

(** ** ImproveMemoryOps.cpp: gathers and scatters that become loads and stores *)

(** What lGSToLoadStore (1260-1563) makes of a call for elements of [step]
    bytes. *)
Inductive outcome :=
| Kept                         (* left as it is *)
| ScalarLoad (off : exp)       (* one load at base + off[0], broadcast *)
| Vector (off : exp)           (* masked load/store at base + off[0] *)
| Reversed (off : exp).        (* load/store at base + off[n-1], reversed *)

(** lGetOffsetScaleVec (1179-1194) and the full offsets (1376-1414). *)
Definition scale_vec (n : nat) (w s : Z) : exp := Data w (repeat s n).

Definition full_offsets (n : nat) (factored : bool) (k : call) : exp :=
  let w := width (c_var k) in
  if factored
  then Bin Add false w (Bin Mul false w (scale_vec n w (c_scale k)) (c_var k)) (c_const k)
  else if c_scale k =? 1 then c_var k
       else Bin Mul false w (scale_vec n w (c_scale k)) (c_var k).

Definition to_load_store (n : nat) (P : prog) (f : nat) (factored gather mask_all_on : bool)
  (step : Z) (k : call) : outcome :=
  let off := full_offsets n factored k in
  if vector_all_equal n P f off then
    if gather then ScalarLoad off else Kept
  else if vector_is_linear n P f step off then Vector off
  else if vector_is_linear n P f (- step) off then
         if mask_all_on then Reversed off else Kept
  else Kept.
