(** The value of an operator at run time: the LLVM instructions that are emitted, on bit patterns.  None:
    undefined or poison.  LLVM Language Reference: add, sub, mul (nsw), udiv, sdiv, urem, srem, shl, lshr,
    ashr, and, or, xor, icmp, fcmp, sext, zext, trunc, sitofp, uitofp, fptosi, fptoui. *)
From Coq Require Import ZArith List Bool SpecFloat.
From Verif Require Import Bits FoldModel.
Import ListNotations.
Open Scope Z_scope.

(** The integer a bit pattern of n bits stands for, and the pattern of an integer. *)
Definition s_of (n x : Z) : Z := if 2 ^ (n - 1) <=? x then x - 2 ^ n else x.
Definition val_of (t : ity) (x : Z) : Z := if sgn t then s_of (bits t) x else x.
Definition pat (t : ity) (z : Z) : Z := z mod 2 ^ bits t.

Definition fits (t : ity) (z : Z) : Prop := if sgn t then - 2 ^ (bits t - 1) <= z < 2 ^ (bits t - 1) else 0 <= z < 2 ^ bits t.
Definition fits_s (n z : Z) : bool := (- 2 ^ (n - 1) <=? z) && (z <? 2 ^ (n - 1)).

(** The types of the language. *)
Definition int_type (t : ity) : Prop := bits t = 8 \/ bits t = 16 \/ bits t = 32 \/ bits t = 64.

(** add, sub, mul: nsw for signed types unless --wrap-signed-int is given *)
Definition run_arith (wrap : bool) (t : ity) (f : Z -> Z -> Z) (x y : Z) : option Z :=
  if sgn t && negb wrap && negb (fits_s (bits t) (f (s_of (bits t) x) (s_of (bits t) y))) then None
  else Some ((f x y) mod 2 ^ bits t).

Definition run_binary (wrap : bool) (t : ity) (op : binop) (x y : Z) : option Z :=
  let n := bits t in
  match op with
  | Add => run_arith wrap t Z.add x y
  | Sub => run_arith wrap t Z.sub x y
  | Mul => run_arith wrap t Z.mul x y
  | Div => if y =? 0 then None
           else if sgn t then
             if (s_of n x =? - 2 ^ (n - 1)) && (s_of n y =? -1) then None else Some (pat t (Z.quot (s_of n x) (s_of n y)))
           else Some (x / y)
  | Mod => if y =? 0 then None
           else if sgn t then
             if (s_of n x =? - 2 ^ (n - 1)) && (s_of n y =? -1) then None else Some (pat t (Z.rem (s_of n x) (s_of n y)))
           else Some (x mod y)
  | Shl => if n <=? y then None else Some ((x * 2 ^ y) mod 2 ^ n)
  | Shr => if n <=? y then None else Some (if sgn t then pat t (s_of n x / 2 ^ y) else x / 2 ^ y)
  | BitAnd => Some (Z.land x y)
  | BitXor => Some (Z.lxor x y)
  | BitOr => Some (Z.lor x y)
  | Lt => Some (if val_of t x <? val_of t y then 1 else 0)
  | Gt => Some (if val_of t x >? val_of t y then 1 else 0)
  | Le => Some (if val_of t x <=? val_of t y then 1 else 0)
  | Ge => Some (if val_of t x >=? val_of t y then 1 else 0)
  | Equal => Some (if x =? y then 1 else 0)
  | NotEqual => Some (if x =? y then 0 else 1)
  end.

(** 0 - x *)
Definition run_negate (wrap : bool) (t : ity) (x : Z) : option Z := run_arith wrap t Z.sub 0 x.
(** xor with all ones *)
Definition run_bitnot (t : ity) (x : Z) : Z := Z.lxor x (2 ^ bits t - 1).

(** sext or zext by the signedness of the source type, trunc, or nothing if the sizes are equal *)
Definition run_conv_int (from to : ity) (x : Z) : Z :=
  if bits from <? bits to then (if sgn from then (s_of (bits from) x) mod 2 ^ bits to else x)
  else x mod 2 ^ bits to.

(** A bool is a pattern of n equal bits (n = 1 for uniform bool, the mask's size for varying). *)
Definition pat_bool (n : Z) (b : bool) : Z := if b then 2 ^ n - 1 else 0.
(** icmp with unsigned predicates on the patterns, the result extended again (I1VecToBoolVec) *)
Definition run_bool (n : Z) (op : binop) (x y : Z) : option Z :=
  match op with
  | BitAnd => Some (Z.land x y) | BitXor => Some (Z.lxor x y) | BitOr => Some (Z.lor x y)
  | Lt => Some (pat_bool n (x <? y)) | Gt => Some (pat_bool n (x >? y))
  | Le => Some (pat_bool n (x <=? y)) | Ge => Some (pat_bool n (x >=? y))
  | Equal => Some (pat_bool n (x =? y)) | NotEqual => Some (pat_bool n (negb (x =? y)))
  | _ => None
  end.

(** bool to an integer type: zext of one bit (lTypeConvAtomicOrUniformVector converts patterns of n bits to one bit first);
    to a floating-point type: uitofp of it *)
Definition run_bool_int (n x : Z) : Z := if x =? 2 ^ n - 1 then 1 else 0.
(** an integer to bool: icmp ne with zero *)
Definition run_int_bool (n x : Z) : Z := pat_bool n (negb (x =? 0)).

(** fcmp olt, ogt, ole, oge, oeq: false if an operand is NaN; une: true then. *)
Definition run_fcmp (op : binop) (a b : spec_float) : option bool :=
  match op with
  | Lt => Some (SFltb a b) | Gt => Some (SFltb b a) | Le => Some (SFleb a b) | Ge => Some (SFleb b a)
  | Equal => Some (SFeqb a b) | NotEqual => Some (negb (SFeqb a b))
  | _ => None
  end.
(** fcmp une x, 0 *)
Definition run_float_bool (x : spec_float) : bool := negb (SFeqb x (S754_zero false)).
(** sitofp, uitofp: rounded once, to nearest even *)
Definition run_int_float (to : fty) (t : ity) (x : Z) : spec_float := binary_normalize (prec to) (emax to) (val_of t x) 0 false.
(** fptosi, fptoui: z is x = m * 2^e rounded toward zero; undefined if z does not fit the type. *)
Definition toward_zero (x : spec_float) (z : Z) : Prop :=
  match x with
  | S754_zero _ => z = 0
  | S754_finite s m e =>
      exists q, 0 <= q /\ z = cond_Zopp s q /\
        q * 2 ^ Z.max 0 (- e) <= Zpos m * 2 ^ Z.max 0 e < (q + 1) * 2 ^ Z.max 0 (- e)
  | _ => False
  end.

(** Numbers of a format. *)
Definition float_type (t : fty) : Prop := t = {| prec := 11; emax := 16 |} \/ t = {| prec := 24; emax := 128 |} \/ t = {| prec := 53; emax := 1024 |}.
Definition is_float (t : fty) (x : spec_float) : Prop := valid_binary (prec t) (emax t) x = true.
