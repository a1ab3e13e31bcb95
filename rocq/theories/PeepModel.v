(** The two passes that replace vector code by the instructions of a target: averages written as
    arithmetic (src/opt/PeepholePass.cpp) and shift() by a constant number of lanes
    (src/opt/ReplaceStdlibShiftPass.cpp).

    Simplification: the instructions of a basic block, which are in SSA form, are unfolded into
    expressions.  The passes visit the instructions in order, so the operands of an instruction have
    been treated before it; the instructions that are looked through (divisions, additions,
    extensions) are never replaced themselves, so that treating the operands first is the same. *)
From Coq Require Import ZArith List Bool.
From Verif Require Import Bits SatModel LanesModel.
Import ListNotations.
Local Open Scope Z_scope.

(** A vector type: number of lanes and width of the elements. *)
Record ty := Vec { lns : nat; bits : Z }.
Definition ty_eqb (a b : ty) : bool := Nat.eqb (lns a) (lns b) && (bits a =? bits b).

Inductive cast := ZExt | SExt | Trunc.
Inductive bop := Add | UDiv | SDiv | LShr | AShr.
(** builtins-decl.cpp:17-24 *)
Inductive builtin :=
| AvgUpU8 | AvgUpU16 | AvgDownU8 | AvgDownU16 | AvgUpS8 | AvgUpS16 | AvgDownS8 | AvgDownS16.
(** The versions of shift() in stdlib/stdlib.ispc:509-617, by element type. *)
Inductive elem := I8 | U8 | I16 | U16 | F16 | I32 | U32 | F32 | I64 | U64 | F64.

Inductive expr :=
| Val (t : ty) (i : nat)                (* any value computed elsewhere *)
| Cst (t : ty) (l : list Z)             (* a constant vector *)
| Cast (c : cast) (t : ty) (e : expr)
| Bin (o : bop) (a b : expr)
| Avg (f : builtin) (a b : expr)        (* a call of an average function of the target *)
| Shift (s : elem) (v : expr) (n : Z)   (* a call of shift() with a constant number of lanes *)
| ShiftBy (s : elem) (v : expr) (i : nat) (* ... with a number computed elsewhere *)
| Shuffle (v : expr) (idx : list Z).    (* shufflevector of v and zeros *)

(** A target: its gang size, how it implements the averages, and for which element widths shift() is
    implemented by a shuffle (stdlib.ispc: __have_shift_via_shuffle_8 .. 64). *)
Inductive avgs := Pavg | M4 | Generic.
Record target := { width : nat; kind : avgs; via_shuffle : Z -> bool }.

(** The result width of a builtin. *)
Definition avg_bits (f : builtin) : Z :=
  match f with AvgUpU8 | AvgDownU8 | AvgUpS8 | AvgDownS8 => 8 | _ => 16 end.

Fixpoint ty_of (T : target) (e : expr) : ty :=
  match e with
  | Val t _ | Cst t _ | Cast _ t _ => t
  | Bin _ a _ => ty_of T a
  | Avg f _ _ => Vec (width T) (avg_bits f)
  | Shift _ v _ | ShiftBy _ v _ | Shuffle v _ => ty_of T v
  end.

(** LLVM's instructions on one lane (LLVM Language Reference); [None] where the result is poison or
    the behaviour undefined.  Values are the unsigned readings of their bits. *)
Definition cast_lane (c : cast) (from to x : Z) : Z :=
  match c with
  | ZExt => x
  | SExt => wrapu to (wraps from x)
  | Trunc => wrapu to x
  end.
Definition bin_lane (o : bop) (n x y : Z) : option Z :=
  match o with
  | Add => Some (wrapu n (x + y))
  | UDiv => if y =? 0 then None else Some (x / y)
  | SDiv => let a := wraps n x in let b := wraps n y in
            if (b =? 0) || ((b =? -1) && (a =? - 2 ^ (n - 1))) then None else Some (wrapu n (Z.quot a b))
  | LShr => if y <? n then Some (Z.shiftr x y) else None
  | AShr => if y <? n then Some (wrapu n (Z.shiftr (wraps n x) y)) else None
  end.

(** The average functions: builtins/target-sse4-i8x16.ll:399-417 and target-sse4-i16x8.ll:393-417 use the
    pavgb and pavgw instructions for the unsigned averages that round up (per lane (a + b + 1) >> 1 in
    one more bit) and the m4 definitions for the others; util.m4:7622-7704 and generic.ispc:923-934 are
    modelled in SatModel. *)
Definition pavg (n x y : Z) : Z := wrapu n (Z.shiftr (wrapu (n + 1) (x + y + 1)) 1).
Definition sgn (g : Z -> Z -> Z -> Z) (n x y : Z) : Z := wrapu n (g n (wraps n x) (wraps n y)).
Definition avg_lane (k : avgs) (f : builtin) (x y : Z) : Z :=
  let n := avg_bits f in
  match f, k with
  | (AvgUpU8 | AvgUpU16), Pavg => pavg n x y
  | (AvgUpU8 | AvgUpU16), M4 => avg_up_u_m4 n x y
  | (AvgUpU8 | AvgUpU16), Generic => avg_up_u_generic n x y
  | (AvgDownU8 | AvgDownU16), (Pavg | M4) => avg_down_u_m4 n x y
  | (AvgDownU8 | AvgDownU16), Generic => avg_down_u_generic n x y
  | (AvgUpS8 | AvgUpS16), (Pavg | M4) => sgn avg_up_s_m4 n x y
  | (AvgUpS8 | AvgUpS16), Generic => sgn avg_up_s_generic n x y
  | (AvgDownS8 | AvgDownS16), (Pavg | M4) => sgn avg_down_s_m4 n x y
  | (AvgDownS8 | AvgDownS16), Generic => sgn avg_down_s_generic n x y
  end.

Definition join {A} (x : option (option A)) : option A := match x with Some y => y | None => None end.

(** stdlib.ispc:509-617 shift(), with the implementations of LanesModel. *)
Definition shift_lane (T : target) (n : Z) (v : gang (option Z)) (i : Z) (l : nat) : option Z :=
  join (if via_shuffle T n then shift_via_shuffle (Some 0) (width T) v i l
        else shift_mem (Some 0) (width T) v i l).

(** Lane [l] of the value of an expression; [rho] and [amt] give the values computed elsewhere. *)
Fixpoint lane (T : target) (rho : nat -> gang Z) (amt : nat -> Z) (e : expr) (l : nat) : option Z :=
  match e with
  | Val t i => Some (wrapu (bits t) (rho i l))
  | Cst t c => Some (wrapu (bits t) (nth l c 0))
  | Cast c t e =>
      match lane T rho amt e l with
      | Some x => Some (cast_lane c (bits (ty_of T e)) (bits t) x)
      | None => None
      end
  | Bin o a b =>
      match lane T rho amt a l, lane T rho amt b l with
      | Some x, Some y => bin_lane o (bits (ty_of T a)) x y
      | _, _ => None
      end
  | Avg f a b =>
      match lane T rho amt a l, lane T rho amt b l with
      | Some x, Some y => Some (avg_lane (kind T) f x y)
      | _, _ => None
      end
  | Shift _ v n => shift_lane T (bits (ty_of T v)) (lane T rho amt v) n l
  | ShiftBy _ v i => shift_lane T (bits (ty_of T v)) (lane T rho amt v) (wraps 32 (amt i)) l
  | Shuffle v idx =>
      let j := nth l idx (-1) in
      if (0 <=? j) && (j <? Z.of_nat (width T)) then lane T rho amt v (Z.to_nat j)
      else if (Z.of_nat (width T) <=? j) && (j <? 2 * Z.of_nat (width T)) then Some 0
      else None
  end.

(** ** PeepholePass.cpp *)

(** llvm/ADT/APInt.h: isIntN, whether the unsigned value fits in N bits. *)
Definition isIntN (N c : Z) : bool := c <? 2 ^ N.

(** llvm/IR/Constants.h: the value of a constant vector that has the same value in all lanes. *)
Definition splat (l : list Z) : option Z :=
  match l with
  | c :: r => if forallb (Z.eqb c) r then Some c else None
  | [] => None
  end.
(** dyn_cast<ConstantDataVector> and getSplatValue: a vector of zeros is a ConstantAggregateZero. *)
Definition cdv_splat (l : list Z) : option Z :=
  match splat l with Some c => if c =? 0 then None else Some c | None => None end.

Definition cast_eqb (a b : cast) : bool :=
  match a, b with ZExt, ZExt | SExt, SExt | Trunc, Trunc => true | _, _ => false end.

(** PeepholePass.cpp:19-32 CastClassTypes_match, with the types of 34-62. *)
Definition m_cast {A} (T : target) (c : cast) (from to : Z) (p : expr -> option A) (e : expr) : option A :=
  match e with
  | Cast c' t x =>
      if cast_eqb c' c && ty_eqb t (Vec (width T) to) && ty_eqb (ty_of T x) (Vec (width T) from) then p x
      else None
  | _ => None
  end.

(** PeepholePass.cpp:64-90 UDiv2_match *)
Definition m_udiv2 {A} (p : expr -> option A) (e : expr) : option A :=
  match e with
  | Bin o a (Cst _ l) =>
      match cdv_splat l, o with
      | Some c, UDiv => if isIntN 2 c then p a else None
      | Some c, LShr => if isIntN 1 c then p a else None
      | _, _ => None
      end
  | _ => None
  end.
(** PeepholePass.cpp:94-120 SDiv2_match *)
Definition m_sdiv2 {A} (p : expr -> option A) (e : expr) : option A :=
  match e with
  | Bin o a (Cst _ l) =>
      match cdv_splat l, o with
      | Some c, SDiv => if isIntN 2 c then p a else None
      | Some c, AShr => if isIntN 1 c then p a else None
      | _, _ => None
      end
  | _ => None
  end.

(** llvm/IR/PatternMatch.h: m_Add (operands in this order), m_APInt, m_Value, m_CombineOr. *)
Definition m_add {A B} (p : expr -> option A) (q : expr -> option B) (e : expr) : option (A * B) :=
  match e with
  | Bin Add a b => match p a, q b with Some x, Some y => Some (x, y) | _, _ => None end
  | _ => None
  end.
Definition m_apint (e : expr) : option Z := match e with Cst _ l => splat l | _ => None end.
Definition m_value (e : expr) : option expr := Some e.
Definition m_or {A} (p q : expr -> option A) (e : expr) : option A :=
  match p e with Some x => Some x | None => q e end.

(** PeepholePass.cpp:160-164, 186-191, 213-217, 239-244: the three ways to add 1, giving the operands and
    the constant. *)
Definition sum_and_one (x : expr -> option expr) : expr -> option (expr * expr * Z) :=
  m_or (m_or (fun e => match m_add x (m_add x m_apint) e with
                       | Some (a, (b, d)) => Some (a, b, d) | None => None end)
             (fun e => match m_add (m_add x m_apint) x e with
                       | Some ((a, d), b) => Some (a, b, d) | None => None end))
       (fun e => match m_add (m_add x x) m_apint e with
                 | Some ((a, b), d) => Some (a, b, d) | None => None end).

(** PeepholePass.cpp:124-155 lHasIntrinsicInDefinition, lGetBinaryIntrinsic *)
Definition has_intrinsic (k : avgs) (f : builtin) : bool :=
  match k, f with Pavg, (AvgUpU8 | AvgUpU16) => true | _, _ => false end.
Definition get_intrinsic (T : target) (f : builtin) (a b : expr) : option expr :=
  if has_intrinsic (kind T) f then Some (Avg f a b) else None.

(** PeepholePass.cpp:156-172, 181-199, 208-225, 234-252 lMatchAvgUp*: [div2] is m_UDiv2 or m_SDiv2, [ext] the
    extension, [n] the width. *)
Definition match_up (T : target) (div2 : (expr -> option (expr * expr * Z)) -> expr -> option (expr * expr * Z))
    (ext : cast) (n : Z) (f : builtin) (e : expr) : option expr :=
  match m_cast T Trunc (2 * n) n (div2 (sum_and_one (m_cast T ext n (2 * n) m_value))) e with
  | Some (a, b, d) => if isIntN 1 d then get_intrinsic T f a b else None
  | None => None
  end.
(** PeepholePass.cpp:174-179, 201-206, 227-232, 254-259 lMatchAvgDown* *)
Definition match_down (T : target) (div2 : (expr -> option (expr * expr)) -> expr -> option (expr * expr))
    (ext : cast) (n : Z) (f : builtin) (e : expr) : option expr :=
  match m_cast T Trunc (2 * n) n
          (div2 (m_add (m_cast T ext n (2 * n) m_value) (m_cast T ext n (2 * n) m_value))) e with
  | Some (a, b) => get_intrinsic T f a b
  | None => None
  end.

Definition orelse {A} (a b : option A) : option A := match a with Some _ => a | None => b end.

(** PeepholePass.cpp:261-304 matchAndReplace, one instruction *)
Definition average (T : target) (e : expr) : option expr :=
  orelse (match_up T m_udiv2 ZExt 8 AvgUpU8 e)
  (orelse (match_up T m_udiv2 ZExt 16 AvgUpU16 e)
  (orelse (match_down T m_udiv2 ZExt 8 AvgDownU8 e)
  (orelse (match_down T m_udiv2 ZExt 16 AvgDownU16 e)
  (orelse (match_up T m_sdiv2 SExt 8 AvgUpS8 e)
  (orelse (match_up T m_sdiv2 SExt 16 AvgUpS16 e)
  (orelse (match_down T m_sdiv2 SExt 8 AvgDownS8 e)
          (match_down T m_sdiv2 SExt 16 AvgDownS16 e))))))).
Definition replace (T : target) (e : expr) : expr :=
  match average T e with Some r => r | None => e end.

(** PeepholePass.cpp:261-323 matchAndReplace and run *)
Fixpoint peephole (T : target) (e : expr) : expr :=
  replace T
    match e with
    | Val _ _ | Cst _ _ => e
    | Cast c t a => Cast c t (peephole T a)
    | Bin o a b => Bin o (peephole T a) (peephole T b)
    | Avg f a b => Avg f (peephole T a) (peephole T b)
    | Shift s v n => Shift s (peephole T v) n
    | ShiftBy s v i => ShiftBy s (peephole T v) i
    | Shuffle v idx => Shuffle (peephole T v) idx
    end.

(** ** ReplaceStdlibShiftPass.cpp *)

(** ReplaceStdlibShiftPass.cpp:33-38: the versions that are looked for. *)
Definition replaced (s : elem) : bool :=
  match s with I8 | I16 | I32 | I64 | F32 | F64 => true | _ => false end.

(** ReplaceStdlibShiftPass.cpp:55-61; [None] when the addition overflows the compiler's int, which is
    undefined in C++. *)
Definition shuffle_index (W : nat) (n : Z) (i : nat) : option Z :=
  let s := Z.of_nat i + n in
  if (s <? - 2 ^ 31) || (2 ^ 31 <=? s) then None
  else
    let s := if s <? 0 then Z.of_nat W else s in
    let s := if Z.of_nat W <=? s then Z.of_nat W else s in
    Some s.
Fixpoint all_some {A} (l : list (option A)) : option (list A) :=
  match l with
  | [] => Some []
  | Some x :: r => match all_some r with Some y => Some (x :: y) | None => None end
  | None :: _ => None
  end.
Definition shuffle_vals (W : nat) (n : Z) : option (list Z) :=
  all_some (map (shuffle_index W n) (seq 0 W)).

(** ReplaceStdlibShiftPass.cpp:26-80 replaceStdlibShiftBuiltin *)
Fixpoint shifts (T : target) (e : expr) : option expr :=
  match e with
  | Val _ _ | Cst _ _ => Some e
  | Cast c t a => match shifts T a with Some a => Some (Cast c t a) | None => None end
  | Bin o a b => match shifts T a, shifts T b with Some a, Some b => Some (Bin o a b) | _, _ => None end
  | Avg f a b => match shifts T a, shifts T b with Some a, Some b => Some (Avg f a b) | _, _ => None end
  | Shift s v n =>
      match shifts T v with
      | Some v =>
          if replaced s then
            match shuffle_vals (width T) n with Some idx => Some (Shuffle v idx) | None => None end
          else Some (Shift s v n)
      | None => None
      end
  | ShiftBy s v i => match shifts T v with Some v => Some (ShiftBy s v i) | None => None end
  | Shuffle v idx => match shifts T v with Some v => Some (Shuffle v idx) | None => None end
  end.
