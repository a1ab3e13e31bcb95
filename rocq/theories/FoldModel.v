(** Constant folding, src/expr.cpp: UnaryExpr::Optimize 1383-1506, lConstFold* 2436-2703,
    BinaryExpr::Optimize 2705-2820, SelectExpr::Optimize 3937-4036, lConvertElement 6511-6563,
    TypeCastExpr::Optimize 8200-8290; and the code emitted for the same operators: lEmitNegate 1276-1293,
    UnaryExpr::GetValue 1319-1345, lBinaryExprBitOpInst 1736-1756, lBinaryExprArithOpInst 1900-1921,
    lBinaryExprCmpOpPred 1945-1963, lTypeConvAtomicOrUniformVector 6979-7618.

    A constant is held in a variable of a C++ type in the compiler: its value is an integer in the range
    of the type.  At run time it is a bit pattern. *)
From Coq Require Import ZArith List Bool SpecFloat.
From Verif Require Import Bits.
Import ListNotations.
Open Scope Z_scope.

(** An integer type: number of bits and signedness. *)
Record ity := { bits : Z; sgn : bool }.

Inductive binop := Add | Sub | Mul | Div | Mod | Shl | Shr | BitAnd | BitXor | BitOr | Lt | Gt | Le | Ge | Equal | NotEqual.

(** ** In the compiler *)

(** What a C++ expression does: a value; undefined behaviour; the hardware exception of an integer
    division that overflows. *)
Inductive host (A : Type) := HVal (a : A) | HUndef | HTrap.
Arguments HVal {A}. Arguments HUndef {A}. Arguments HTrap {A}.

(** Conversion to a C++ integer type. *)
Definition cast (t : ity) (z : Z) : Z := if sgn t then wraps (bits t) z else wrapu (bits t) z.

(** The integer promotions: operands of fewer than 32 bits are converted to int. *)
Definition promoted (t : ity) : ity := if bits t <? 32 then {| bits := 32; sgn := true |} else t.

(** The result [z] of an arithmetic operation in type [p].  [hw]: the C++ compiler that compiled ispc
    wraps on signed overflow; otherwise it is undefined behaviour. *)
Definition harith (hw : bool) (p : ity) (z : Z) : host Z :=
  if sgn p then
    if (- 2 ^ (bits p - 1) <=? z) && (z <? 2 ^ (bits p - 1)) then HVal z
    else if hw then HVal (wraps (bits p) z) else HUndef
  else HVal (wrapu (bits p) z).

(** C++17 (CMakeLists.txt 15): the amount must be in range; a negative signed operand is undefined
    behaviour for <<, as is a result that does not fit the unsigned type. *)
Definition hshl (hw : bool) (p : ity) (a b : Z) : host Z :=
  if (b <? 0) || (bits p <=? b) then HUndef
  else if sgn p then
    if (0 <=? a) && (a * 2 ^ b <? 2 ^ bits p) then HVal (wraps (bits p) (a * 2 ^ b))
    else if hw then HVal (wraps (bits p) (a * 2 ^ b)) else HUndef
  else HVal (wrapu (bits p) (a * 2 ^ b)).
(** >> of a negative value is arithmetic with the compilers in use. *)
Definition hshr (p : ity) (a b : Z) : host Z := if (b <? 0) || (bits p <=? b) then HUndef else HVal (a / 2 ^ b).

Definition hmap {A B} (f : A -> B) (h : host A) : host B := match h with HVal a => HVal (f a) | HUndef => HUndef | HTrap => HTrap end.

(** One lane: [None]: the function returns nullptr, the expression is kept (a zero divisor, 2513-2515 and
    2631-2633).  FOLD_OP_REF 2453-2464, 2485-2530, 2621-2645, 2533-2552 (results of comparisons are 0 and
    1).  The warnings are left out, and with them the operations in TRef. *)
Definition fold_lane (hw : bool) (t : ity) (op : binop) (a b : Z) : option (host Z) :=
  let p := promoted t in
  match op with
  | Add => Some (hmap (cast t) (harith hw p (a + b)))
  | Sub => Some (hmap (cast t) (harith hw p (a - b)))
  | Mul => Some (hmap (cast t) (harith hw p (a * b)))
  | Div => if b =? 0 then None
           else Some (if sgn p && negb (Z.quot a b <? 2 ^ (bits p - 1)) then HTrap else HVal (cast t (Z.quot a b)))
  | Mod => if b =? 0 then None
           else Some (if sgn p && negb (Z.quot a b <? 2 ^ (bits p - 1)) then HTrap else HVal (cast t (Z.rem a b)))
  | Shl => Some (hmap (cast t) (hshl hw p a b))
  | Shr => Some (hmap (cast t) (hshr p a b))
  | BitAnd => Some (HVal (cast t (Z.land a b)))
  | BitXor => Some (HVal (cast t (Z.lxor a b)))
  | BitOr => Some (HVal (cast t (Z.lor a b)))
  | Lt => Some (HVal (b2z (a <? b)))
  | Gt => Some (HVal (b2z (b <? a)))
  | Le => Some (HVal (b2z (a <=? b)))
  | Ge => Some (HVal (b2z (b <=? a)))
  | Equal => Some (HVal (b2z (a =? b)))
  | NotEqual => Some (HVal (b2z (negb (a =? b))))
  end.

(** All lanes in turn, 2705-2820: a new constant, the old expression, or no result at all. *)
Inductive folded := FConst (v : list Z) | FKeep | FUndef | FCrash.
Fixpoint fold_binary (hw : bool) (t : ity) (op : binop) (v0 v1 : list Z) : folded :=
  match v0, v1 with
  | a :: v0, b :: v1 =>
      match fold_lane hw t op a b with
      | None => FKeep
      | Some HTrap => FCrash
      | Some HUndef => FUndef
      | Some (HVal r) => match fold_binary hw t op v0 v1 with FConst l => FConst (r :: l) | x => x end
      end
  | _, _ => FConst []
  end.

(** The chain of tests in UnaryExpr::Optimize, 1423-1463 (enums are uint32): the C++ type chosen for a type, or the
    assertion at 1451.  At 1441 the type of the varying case is VaryingUInt32, not VaryingUInt16. *)
Definition negate_case (varying : bool) (t : ity) : option ity :=
  if (bits t =? 16) && negb (sgn t) then (if varying then None else Some t) else Some t.
(** 1393-1402 *)
Definition fold_negate (hw : bool) (varying : bool) (t : ity) (a : Z) : option (host Z) :=
  match negate_case varying t with
  | None => None
  | Some t => Some (hmap (cast t) (harith hw (promoted t) (- a)))
  end.
(** 1382-1391 *)
Definition fold_bitnot (t : ity) (a : Z) : Z := cast t (Z.lnot a).

(** lConvertElement 6517, 6522, 6526 *)
Definition conv_int (t : ity) (a : Z) : Z := cast t a.
Definition conv_bool_int (b : bool) : Z := if b then 1 else 0.
Definition conv_int_bool (a : Z) : bool := negb (a =? 0).

(** lConstFoldBoolBinaryOp 2649-2670; the order of operators on bool is that of 0 and 1.  None: not folded. *)
Definition fold_bool (op : binop) (a b : bool) : option bool :=
  match op with
  | BitAnd => Some (a && b) | BitXor => Some (xorb a b) | BitOr => Some (a || b)
  | Lt => Some (b2z a <? b2z b) | Gt => Some (b2z b <? b2z a) | Le => Some (b2z a <=? b2z b) | Ge => Some (b2z b <=? b2z a)
  | Equal => Some (eqb a b) | NotEqual => Some (negb (eqb a b))
  | _ => None
  end.
Definition fold_land (a b : bool) : bool := a && b.
Definition fold_lor (a b : bool) : bool := a || b.
Definition fold_lnot (a : bool) : bool := negb a.

(** SelectExpr::Optimize 3974-3999: the test is constant.  [SFirst]/[SSecond]: the expression is replaced
    by one of its operands; SBoth: lanes are chosen one by one if both operands are constants. *)
Inductive select_result := SFirst | SSecond | SBoth.
Definition fold_select (bv : list bool) : select_result :=
  match bv with
  | [] => SBoth
  | b :: _ => if forallb (fun x => eqb x b) bv then (if b then SFirst else SSecond) else SBoth
  end.
(** 3941-3948 *)
Fixpoint select_lanes {A} (bv : list bool) (v1 v2 : list A) : list A :=
  match bv, v1, v2 with b :: bv, x :: v1, y :: v2 => (if b then x else y) :: select_lanes bv v1 v2 | _, _, _ => [] end.

(** ** Floating-point constants (llvm::APFloat, rounding to nearest even) *)
Record fty := { prec : Z; emax : Z }.
Definition half : fty := {| prec := 11; emax := 16 |}.
Definition single : fty := {| prec := 24; emax := 128 |}.
Definition double : fty := {| prec := 53; emax := 1024 |}.
Definition fty_eqb (a b : fty) : bool := (prec a =? prec b) && (emax a =? emax b).

(** APFloat::convert; a NaN stays a NaN (payloads are not modelled). *)
Definition fconvert (from to : fty) (x : spec_float) : spec_float :=
  if fty_eqb from to then x
  else match x with
       | S754_finite s m e => binary_round (prec to) (emax to) s m e
       | x => x
       end.
Definition of_int (t : fty) (z : Z) : spec_float := binary_normalize (prec t) (emax t) z 0 false.

(** 6540-6543 with lCreateAPFloat 107-113: by way of double *)
Definition conv_int_float (t : fty) (a : Z) : spec_float := fconvert double t (of_int double a).
(** truncation toward zero; None if the value does not fit the type (undefined behaviour) *)
Definition trunc (x : spec_float) : option Z :=
  match x with
  | S754_zero _ => Some 0
  | S754_finite s m e => Some (cond_Zopp s (if 0 <=? e then Zpos m * 2 ^ e else Zpos m / 2 ^ (- e)))
  | _ => None
  end.
Definition to_int (t : ity) (x : spec_float) : option Z :=
  match trunc x with
  | Some z => if Z.eqb (cast t z) z then Some z else None
  | None => None
  end.
(** 6531-6537 *)
Definition conv_float_int (from : fty) (t : ity) (x : spec_float) : option Z := to_int t (fconvert from double x).
(** 6554: APFloat::isNonZero *)
Definition conv_float_bool (x : spec_float) : bool := match x with S754_zero _ => false | _ => true end.
(** 6557-6559 *)
Definition conv_bool_float (t : fty) (b : bool) : spec_float := fconvert double t (of_int double (if b then 1 else 0)).

(** APFloat::compare and the operators of llvm/ADT/APFloat.h: == is cmpEqual, != its negation, < cmpLessThan,
    <= less than or equal (2554-2566). *)
Definition fold_fcmp (op : binop) (a b : spec_float) : option bool :=
  let c := SFcompare a b in
  match op with
  | Lt => Some (match c with Some Datatypes.Lt => true | _ => false end)
  | Gt => Some (match c with Some Datatypes.Gt => true | _ => false end)
  | Le => Some (match c with Some Datatypes.Lt | Some Datatypes.Eq => true | _ => false end)
  | Ge => Some (match c with Some Datatypes.Gt | Some Datatypes.Eq => true | _ => false end)
  | Equal => Some (match c with Some Datatypes.Eq => true | _ => false end)
  | NotEqual => Some (negb (match c with Some Datatypes.Eq => true | _ => false end))
  | _ => None
  end.
(** 2567-2576 *)
Definition fold_fland (a b : spec_float) : bool := conv_float_bool a && conv_float_bool b.
Definition fold_flor (a b : spec_float) : bool := conv_float_bool a || conv_float_bool b.
