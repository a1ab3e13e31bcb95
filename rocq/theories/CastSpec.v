(** What conversions mean: values, how they are represented, and which value a conversion yields. *)
From Coq Require Import ZArith List Bool SpecFloat.
Import ListNotations.
From Verif Require Import Bits FoldModel FoldSpec CastModel.
Open Scope Z_scope.

(** The types of the language (not TYPE_INT1). *)
Definition user_type (t : basic) : Prop := t <> BInt1.
Definition is_signed (t : basic) : bool := match t with BInt8 | BInt16 | BInt32 | BInt64 => true | _ => false end.

(** The sizes of the integer types, in bits. *)
Definition width (t : basic) : option Z :=
  match t with
  | BInt8 | BUInt8 => Some 8 | BInt16 | BUInt16 => Some 16 | BInt32 | BUInt32 => Some 32 | BInt64 | BUInt64 => Some 64
  | _ => None
  end.
(** IEEE 754: float16 is binary16, float is binary32, double is binary64. *)
Definition float_format (t : basic) : option fty :=
  match t with
  | BHalf => Some {| prec := 11; emax := 16 |}
  | BFloat => Some {| prec := 24; emax := 128 |}
  | BDouble => Some {| prec := 53; emax := 1024 |}
  | _ => None
  end.

(** Values of basic types. *)
Inductive cv := CB (b : bool) | CI (z : Z) | CF (x : spec_float).
Definition in_range (n : Z) (signed : bool) (z : Z) : Prop :=
  if signed then - 2 ^ (n - 1) <= z < 2 ^ (n - 1) else 0 <= z < 2 ^ n.
Definition has_type (t : basic) (v : cv) : Prop :=
  match v with
  | CB _ => t = BBool
  | CI z => exists n, width t = Some n /\ in_range n (is_signed t) z
  | CF x => exists f, float_format t = Some f
  end.

(** The value of type [to] a value of type [from] is converted to; none if the conversion is undefined (a
    floating-point number whose integer part does not fit).  As in C:
    - to bool: whether the value differs from zero (a NaN does);
    - from bool: 0 or 1;
    - between integers: the value of the type that is congruent modulo 2 to the size of the type;
    - from an integer to a floating-point type: the nearest number (binary_normalize of Coq's SpecFloat);
    - from a floating-point number to an integer: rounded toward zero. *)
Inductive converts : basic -> basic -> cv -> cv -> Prop :=
| Same t v : converts t t v v
| BoolBool b : converts BBool BBool (CB b) (CB b)
| IntBool from z : converts from BBool (CI z) (CB (negb (z =? 0)))
| FloatBool from x : converts from BBool (CF x) (CB (match x with S754_zero _ => false | _ => true end))
| BoolInt to n (b : bool) : width to = Some n -> converts BBool to (CB b) (CI (if b then 1 else 0))
| BoolFloat to f (b : bool) : float_format to = Some f ->
    converts BBool to (CB b) (CF (binary_normalize (prec f) (emax f) (if b then 1 else 0) 0 false))
| IntInt from to n z y k : width to = Some n -> in_range n (is_signed to) y -> y = z + k * 2 ^ n ->
    converts from to (CI z) (CI y)
| IntFloat from to f z : float_format to = Some f ->
    converts from to (CI z) (CF (binary_normalize (prec f) (emax f) z 0 false))
| FloatInt from to n x z : width to = Some n -> toward_zero x z -> in_range n (is_signed to) z ->
    converts from to (CF x) (CI z)
| FloatFloat from to f g x : float_format from = Some f -> float_format to = Some g ->
    converts from to (CF x) (CF (fconvert f g x)).

(** How a value of a type is represented in a lane: integers modulo 2 to the size, bool as [n] equal bits (one bit if
    uniform, the size of the mask if varying), floating-point numbers by themselves. *)
Definition represents (n : Z) (t : basic) (s : sv) (v : cv) : Prop :=
  match v with
  | CB b => t = BBool /\ s = IV n (if b then 2 ^ n - 1 else 0)
  | CI z => exists k, width t = Some k /\ in_range k (is_signed t) z /\ s = IV k (z mod 2 ^ k)
  | CF x => exists f, float_format t = Some f /\ s = FV f x
  end.
(** The sizes of mask elements of all targets. *)
Definition mask_size (mb : Z) : Prop := In mb [1; 8; 16; 32; 64].

(** Lanes, one by one; None: the lane has no value (it is poison). *)
Definition lane_represents (n : Z) (t : basic) (s : sv) (v : option cv) : Prop :=
  match v with Some v => represents n t s v | None => s = Poison end.
Definition lanes_represent (n : Z) (t : basic) (l : list sv) (vs : list (option cv)) : Prop := Forall2 (lane_represents n t) l vs.

(** A lane of the result is right: the value the conversion yields is there; nothing is said if it is undefined. *)
Definition right_lane (n : Z) (from to : basic) (v : option cv) (s : sv) : Prop :=
  match v with Some v => forall w, converts from to v w -> represents n to s w | None => True end.
Definition right_lanes (n : Z) (from to : basic) (vs : list (option cv)) (l : list sv) : Prop :=
  Forall2 (right_lane n from to) vs l.

(** Uniform structures in memory: bool as a byte 0 or 1. *)
Inductive mem_rep : basic -> sv -> cv -> Prop :=
| MBool (b : bool) : mem_rep BBool (IV 8 (if b then 1 else 0)) (CB b)
| MOther t s v : t <> BBool -> represents 1 t s v -> mem_rep t s v.

(** What a program sees of a value of a structure type: values of basic types, addresses, and members in order. *)
Inductive tree := TVal (c : cv) | TPtr (a : Z) | TNode (l : list tree).

(** A uniform value in memory.  Elements of short vectors and arrays are treated as members; a short vector may
    have more elements in memory than the type says. *)
Inductive uniform_value (pw : Z) : sty -> lv -> tree -> Prop :=
| UBasic t s c : mem_rep t s c -> uniform_value pw (SBasic t) (Sc s) (TVal c)
| UPtr a : 0 <= a < 2 ^ pw -> uniform_value pw SPtr (Sc (PV a)) (TPtr a)
| UVec n t l ts : uniform_members pw (repeat (false, SBasic t) n) (map Sc l) ts -> uniform_value pw (SVecOf n t) (Vec l) (TNode ts)
| UArr n t l ts : uniform_members pw (repeat (false, t) n) l ts -> uniform_value pw (SArr n t) (Agg l) (TNode ts)
| UStruct ms l ts : uniform_members pw ms l ts -> uniform_value pw (SStruct ms) (Agg l) (TNode ts)
with uniform_members (pw : Z) : list (bool * sty) -> list lv -> list tree -> Prop :=
| UNil l : uniform_members pw [] l []
| UCons b t ms v l x ts : uniform_value pw t v x -> uniform_members pw ms l ts -> uniform_members pw ((b, t) :: ms) (v :: l) (x :: ts).

(** What instance [i] sees of a varying value in memory; a member that is bound uniform is shared. *)
Inductive varying_value (pw : Z) (i : nat) : sty -> lv -> tree -> Prop :=
| VBasic t l s c : nth_error l i = Some s -> mem_rep t s c -> varying_value pw i (SBasic t) (Vec l) (TVal c)
| VPtr l a : nth_error l i = Some (IV pw a) -> varying_value pw i SPtr (Vec l) (TPtr a)
| VVec n t l ts : varying_members pw i (repeat (false, SBasic t) n) l ts -> varying_value pw i (SVecOf n t) (Agg l) (TNode ts)
| VArr n t l ts : varying_members pw i (repeat (false, t) n) l ts -> varying_value pw i (SArr n t) (Agg l) (TNode ts)
| VStruct ms l ts : varying_members pw i ms l ts -> varying_value pw i (SStruct ms) (Agg l) (TNode ts)
with varying_members (pw : Z) (i : nat) : list (bool * sty) -> list lv -> list tree -> Prop :=
| VNil l : varying_members pw i [] l []
| VCons t ms v l x ts : varying_value pw i t v x -> varying_members pw i ms l ts ->
    varying_members pw i ((false, t) :: ms) (v :: l) (x :: ts)
| VBound t ms v l x ts : uniform_value pw t v x -> varying_members pw i ms l ts ->
    varying_members pw i ((true, t) :: ms) (v :: l) (x :: ts).
(** No member is of TYPE_INT1. *)
Inductive user_sty : sty -> Prop :=
| YBasic t : user_type t -> user_sty (SBasic t)
| YPtr : user_sty SPtr
| YVec n t : user_type t -> user_sty (SVecOf n t)
| YArr n t : user_sty t -> user_sty (SArr n t)
| YStruct ms : user_members ms -> user_sty (SStruct ms)
with user_members : list (bool * sty) -> Prop :=
| YNil : user_members []
| YCons b t ms : user_sty t -> user_members ms -> user_members ((b, t) :: ms).
