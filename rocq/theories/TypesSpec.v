(** What the documentation says about types, independent of the compiler's code. *)
From Coq Require Import ZArith NArith Bool Ascii String List.
From Verif Require Import TypesModel.
Import ListNotations.

(** Types that a symbol name does not tell apart: the const of a pointer itself, address spaces, and
    of a function type everything but the parameters and "unmasked".  Enums of the same name are the
    same. *)
Fixpoint alike (enum_name : nat -> name) (a b : ty) {struct a} : Prop :=
  match a, b with
  | Atomic v c x, Atomic v' c' x' => v = v' /\ c = c' /\ x = x'
  | Enum v c i, Enum v' c' i' => v = v' /\ c = c' /\ enum_name i = enum_name i'
  | Pointer v _ s f _ x, Pointer v' _ s' f' _ x' => v = v' /\ s = s' /\ f = f' /\ alike enum_name x x'
  | Array x n, Array x' n' => n = n' /\ alike enum_name x x'
  | Vector x n, Vector x' n' => n = n' /\ alike enum_name x x'
  | Struct v c s, Struct v' c' s' => v = v' /\ c = c' /\ s = s'
  | Ref _ x, Ref _ x' => alike enum_name x x'
  | Func _ ps f, Func _ ps' f' =>
      f_unmasked f = f_unmasked f' /\
      (fix all (l m : list ty) : Prop :=
         match l, m with
         | [], [] => True
         | x :: l, y :: m => alike enum_name x y /\ all l m
         | _, _ => False
         end) ps ps'
  | _, _ => False
  end.

(** No struct or enum name contains "_5D". *)
Fixpoint starts (p s : name) : bool :=
  match p, s with
  | [], _ => true
  | x :: p, y :: s => Ascii.eqb x y && starts p s
  | _ :: _, [] => false
  end.
Fixpoint contains (p s : name) : bool :=
  starts p s || match s with [] => false | _ :: s => contains p s end.
Definition plain_name (s : name) : Prop := contains (lit "_5D") s = false.

(** Types a program can have: no arrays of, pointers to or references to references, vectors of atomic
    types only, functions only behind pointers. *)
Fixpoint legal (enum_name : nat -> name) (t : ty) : Prop :=
  match t with
  | Atomic _ _ _ => True
  | Enum _ _ i => plain_name (enum_name i)
  | Pointer _ _ _ _ _ b =>
      match b with
      | Ref _ _ => False
      | Func _ ps _ => (fix all l := match l with [] => True | x :: l => legal enum_name x /\ all l end) ps
      | _ => legal enum_name b
      end
  | Array b _ => match b with Ref _ _ | Func _ _ _ => False | _ => legal enum_name b end
  | Vector b _ => match b with Atomic _ _ _ => True | _ => False end
  | Struct _ _ s => plain_name s
  | Ref _ b => match b with Ref _ _ | Func _ _ _ => False | _ => legal enum_name b end
  | Func _ _ _ => False
  end.

(** No function pointers, const pointers or address spaces. *)
Fixpoint ordinary (t : ty) : Prop :=
  match t with
  | Atomic _ _ _ | Enum _ _ _ | Struct _ _ _ => True
  | Pointer _ c _ _ p b => c = false /\ p = 0 /\ ordinary b
  | Array b _ | Vector b _ => ordinary b
  | Ref p b => p = 0 /\ ordinary b
  | Func _ _ _ => False
  end.

(** docs/ispc.rst:3050-3056: the precedence of types in mixed arithmetic, highest last. *)
Definition documented_precedence : list basic :=
  [TBool; TInt8; TUInt8; TInt16; TUInt16; TFloat16; TInt32; TUInt32; TFloat; TInt64; TUInt64; TDouble].
Fixpoint index (b : basic) (l : list basic) : nat :=
  match l with [] => 0 | x :: l => if basic_eqb b x then 0 else S (index b l) end.
Definition documented_rank (b : basic) : nat := index b documented_precedence.

Definition bits (b : basic) : nat :=
  match b with
  | TVoid => 0 | TBool | TInt1 => 1 | TInt8 | TUInt8 => 8 | TInt16 | TUInt16 | TFloat16 => 16
  | TInt32 | TUInt32 | TFloat => 32 | TInt64 | TUInt64 | TDouble => 64
  end.

(** The values a type can hold (integers only). *)
Definition int_range (b : basic) : option (Z * Z) :=
  match b with
  | TBool => Some (0, 1)%Z
  | TInt8 => Some (-2 ^ 7, 2 ^ 7 - 1)%Z | TUInt8 => Some (0, 2 ^ 8 - 1)%Z
  | TInt16 => Some (-2 ^ 15, 2 ^ 15 - 1)%Z | TUInt16 => Some (0, 2 ^ 16 - 1)%Z
  | TInt32 => Some (-2 ^ 31, 2 ^ 31 - 1)%Z | TUInt32 => Some (0, 2 ^ 32 - 1)%Z
  | TInt64 => Some (-2 ^ 63, 2 ^ 63 - 1)%Z | TUInt64 => Some (0, 2 ^ 64 - 1)%Z
  | _ => None
  end.

(** Template arguments the symbol does not tell apart. *)
Definition targ_alike (enum_name : nat -> name) (a b : targ) : Prop :=
  match a, b with
  | TType t, TType u => alike enum_name t u
  | TInt t x, TInt u y => alike enum_name t u /\ x = y
  | _, _ => False
  end.
Definition targ_type (a : targ) : ty := match a with TType t | TInt t _ => t end.

(** Pointers are uniform or varying. *)
Fixpoint no_soa_pointer (t : ty) : Prop :=
  match t with
  | Atomic _ _ _ | Enum _ _ _ | Struct _ _ _ => True
  | Pointer v _ _ _ _ b => (v = Uniform \/ v = Varying) /\ no_soa_pointer b
  | Array b _ | Vector b _ | Ref _ b => no_soa_pointer b
  | Func r ps _ => no_soa_pointer r /\ (fix all l := match l with [] => True | x :: l => no_soa_pointer x /\ all l end) ps
  end.

(** Operands of arithmetic: atomic types, enums and short vectors, uniform or varying. *)
Definition plain_var (v : variability) : Prop := v = Uniform \/ v = Varying.
Definition operand (t : ty) : Prop :=
  match t with
  | Atomic v _ _ | Enum v _ _ | Vector (Atomic v _ _) _ => plain_var v
  | _ => False
  end.
Definition basic_of (t : ty) : option basic :=
  match t with Atomic _ _ b | Vector (Atomic _ _ b) _ => Some b | _ => None end.

(** [c] has the smallest cost in [l]. *)
Definition cheapest (cost : candidate -> option Z) (l : list candidate) (c : candidate) (k : Z) : Prop :=
  In c l /\ cost c = Some k /\ forall d e, In d l -> cost d = Some e -> (k <= e)%Z.

(** docs/ispc.rst "Function Overloading": the place of a conversion between atomic types in the
    documented list; None: there is no such conversion.  [widens] says which conversions of basic types
    count as not risking to lose information. *)
Definition documented_step (widens : basic -> basic -> bool) (from to : ty) : option nat :=
  match from, to with
  | Atomic v c x, Atomic w d y =>
      if basic_eqb x TVoid || basic_eqb y TVoid then None
      else
        match v, w with
        | Uniform, Uniform | Varying, Varying =>
            if basic_eqb x y then if Bool.eqb c d then Some 1 else Some 4
            else if widens x y then Some 6 else Some 8
        | Uniform, Varying => if basic_eqb x y then Some 7 else if widens x y then Some 9 else Some 10
        | _, _ => None
        end
  | _, _ => None
  end.
