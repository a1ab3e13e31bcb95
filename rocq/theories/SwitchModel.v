(** The labels of switch statements: src/parse.yy 2394-2412, 3724-3760, src/stmt.cpp 2985-3173, src/ctx.cpp 1060-1200.
    What is executed after a label has been chosen is in SpmdModel.v. *)
From Coq Require Import ZArith List Bool.
Import ListNotations.
Local Open Scope Z_scope.

(** Types of an operand or of a label's constant; enumeration types are unsigned, type.cpp 880 *)
Inductive ty := Bool | Int (bits : Z) | UInt (bits : Z) | Enum | Float.
Definition bits_of (t : ty) : Z := match t with Bool => 1 | Int n | UInt n => n | Enum | Float => 32 end.
(** type.cpp 390-393, 880 IsUnsignedType *)
Definition unsigned (t : ty) : bool := match t with Bool | UInt _ | Enum => true | _ => false end.

(** llvm::ConstantInt::getZExtValue and getSExtValue of a constant of [n] bits, and conversions of C++ to int *)
Definition zext (n v : Z) : Z := v mod 2 ^ n.
Definition sext (n v : Z) : Z := let u := v mod 2 ^ n in if u <? 2 ^ (n - 1) then u else u - 2 ^ n.

(** parse.yy 3745-3759 lGetConstantIntOrSymbol; the constant has type [t] and value [v]; [None]: an error *)
Definition case_value (t : ty) (v : Z) : option Z :=
  match t with
  | Float => None
  | _ => let n := bits_of t in
         if sext 32 (sext n v) =? sext n v then Some (if unsigned t then sext 32 (zext n v) else sext 32 (sext n v)) else None
  end.

(** Statements as far as their labels go: [Sub] for the statements within an if, a loop or a block *)
Inductive stm := Other | Case (t : ty) (v : Z) (s : stm) | Default (s : stm) | Sub (l : list stm) | Switch (t : ty) (s : stm).
Inductive label := Value (v : Z) | Otherwise.

(** stmt.cpp 2993-3040 lSwitchASTPreVisit, called in preorder: the labels so far, newest last, and whether there was an error.
    A case whose value is not one was dropped by the parser with the statements that belong to it, parse.yy 2406-2409. *)
Definition add_label (l : label) (st : list label * bool) : list label * bool :=
  let '(ls, err) := st in
  if existsb (fun m => match l, m with Value v, Value w => v =? w | Otherwise, Otherwise => true | _, _ => false end) ls
  then (ls, true) else (ls ++ [l], err).
Fixpoint collect (s : stm) (st : list label * bool) : list label * bool :=
  match s with
  | Other => st
  | Case t v b => match case_value t v with Some x => collect b (add_label (Value x) st) | None => (fst st, true) end
  | Default b => collect b (add_label Otherwise st)
  | Sub l => fold_left (fun st b => collect b st) l st
  | Switch _ _ => st
  end.
(** A statement compiles if no switch in it has an error; stmt.cpp 3045-3060.  Labels outside of a switch: ctx.cpp 1061-1064, [inside] *)
Fixpoint compiles (inside : bool) (s : stm) : bool :=
  match s with
  | Other => true
  | Case t v b => inside && match case_value t v with Some _ => true | None => false end && compiles inside b
  | Default b => inside && compiles inside b
  | Sub l => forallb (compiles inside) l
  | Switch t b => negb (snd (collect b ([], false))) && compiles true b
  end.

(** stmt.cpp 3137-3168 SwitchStmt::TypeCheck: the type that the operand is converted to, and the operand in it *)
Definition operand_bits (t : ty) : Z := match t with Int 64 | UInt 64 => 64 | _ => 32 end.
Definition operand (t : ty) (x : Z) : Z := sext (operand_bits t) x.
(** LLVMInt32 and LLVMInt64 of the label's int, ctx.cpp 1183-1188 *)
Definition matches (t : ty) (x : Z) (l : label) : bool :=
  match l with Value v => sext (operand_bits t) v =? operand t x | Otherwise => false end.
(** ctx.cpp 1163-1194 SwitchInst with a uniform operand: the label that is jumped to, [None]: behind the switch *)
Definition jump (t : ty) (x : Z) (ls : list label) : option label :=
  match find (matches t x) ls with
  | Some l => Some l
  | None => find (fun l => match l with Otherwise => true | _ => false end) ls
  end.
(** With a varying operand, ctx.cpp 1028-1050 and 1140-1160: whether the mask is turned on at a label for an instance with operand [x] that was running when the switch was entered *)
Definition turned_on (t : ty) (x : Z) (ls : list label) (l : label) : bool :=
  match l with
  | Value _ => matches t x l
  | Otherwise => forallb (fun m => match m with Value _ => negb (matches t x m) | Otherwise => true end) ls
  end.
