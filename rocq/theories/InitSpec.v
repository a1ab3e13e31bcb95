(** What an initializer means (C64), from docs/ispc.rst "Declarations and Initializers" and the C rules it refers to. *)
From Coq Require Import List Bool Arith.
Import ListNotations.
From Verif Require Import CastModel InitModel.

Section Spec.
Variables (V : Type) (zero : basic -> V) (conv : basic -> basic -> V -> V) (W : nat) (value : nat -> val V).

(** A value of a type. *)
Inductive has_type : ty -> val V -> Prop :=
| HUniform b x : has_type (TB false b) (VB x)
| HVarying b l : length l = W -> has_type (TB true b) (VL l)
| HVector vy n b l : length l = n -> Forall (has_type (TB vy b)) l -> has_type (TV vy n b) (VN l)
| HArray n t l : length l = n -> Forall (has_type t) l -> has_type (TA n t) (VN l)
| HStruct ts l : Forall2 has_type ts l -> has_type (TS ts) (VN l).

(** [converted t t' v x]: x is the value v of type t' converted to type t.  Nothing varying becomes uniform. *)
Inductive converted : ty -> ty -> val V -> val V -> Prop :=
| CUniform b b' x : converted (TB false b) (TB false b') (VB x) (VB (conv b' b x))
| CSmear b b' x : converted (TB true b) (TB false b') (VB x) (VL (repeat (conv b' b x) W))
| CVarying b b' l : length l = W -> converted (TB true b) (TB true b') (VL l) (VL (map (conv b' b) l))
| CSplat vy vy' n b b' v x : converted (TB vy b) (TB vy' b') v x -> converted (TV vy n b) (TB vy' b') v (VN (repeat x n))
| CVector vy vy' n b b' l l' : (vy' = true -> vy = true) -> length l = n -> Forall2 (converted (TB vy b) (TB vy' b')) l l' ->
    converted (TV vy n b) (TV vy' n b') (VN l) (VN l')
| CStruct ts v : has_type (TS ts) v -> converted (TS ts) (TS ts) v v.

(** The value of an expression. *)
Definition expr_value (e : expr V) : val V := match e_const e with Some c => c | None => value (e_id e) end.

(** The zero value of a type. *)
Inductive is_zero : ty -> val V -> Prop :=
| ZUniform b : is_zero (TB false b) (VB (zero b))
| ZVarying b : is_zero (TB true b) (VL (repeat (zero b) W))
| ZVector vy n b x : is_zero (TB vy b) x -> is_zero (TV vy n b) (VN (repeat x n))
| ZArray n t x : is_zero t x -> is_zero (TA n t) (VN (repeat x n))
| ZStruct ts l : Forall2 is_zero ts l -> is_zero (TS ts) (VN l).

(** [initial t i x]: a variable of type t with initializer i has the value x. *)
Inductive initial : ty -> init V -> val V -> Prop :=
| InExpr t e x : converted t (e_ty e) (expr_value e) x -> initial t (IExpr e) x
| InBraces vy b i x : initial (TB vy b) i x -> initial (TB vy b) (IList [i]) x
| InLanes b l vs : length l = W -> Forall2 (fun i v => initial (TB false b) i (VB v)) l vs -> initial (TB true b) (IList l) (VL vs)
| InVector vy n b l xs : members (repeat (TB vy b) n) l xs -> initial (TV vy n b) (IList l) (VN xs)
| InArray n t l xs : members (repeat t n) l xs -> initial (TA n t) (IList l) (VN xs)
| InStruct ts l xs : members ts l xs -> initial (TS ts) (IList l) (VN xs)
(** The elements, from left to right; those the list does not reach are zero. *)
with members : list ty -> list (init V) -> list (val V) -> Prop :=
| MNil : members [] [] []
| MZero t ts x xs : is_zero t x -> members ts [] xs -> members (t :: ts) [] (x :: xs)
| MCons t ts i l x xs : initial t i x -> members ts l xs -> members (t :: ts) (i :: l) (x :: xs).

(** [holds t m x]: the memory of a variable of type t has the value x.  A uniform vector may be followed by padding. *)
Inductive holds : ty -> mem V -> val V -> Prop :=
| OUniform b x : holds (TB false b) (MC (Some x)) (VB x)
| OVarying b l : length l = W -> holds (TB true b) (ML (map Some l)) (VL l)
| OUVector n b l rest : length l = n -> holds (TV false n b) (ML (map Some l ++ rest)) (VN (map VB l))
| OVVector n b ms l : length l = n -> Forall2 (holds (TB true b)) ms l -> holds (TV true n b) (MA ms) (VN l)
| OArray n t ms l : length l = n -> Forall2 (holds t) ms l -> holds (TA n t) (MA ms) (VN l)
| OStruct ts ms l : Forall2 (fun t p => holds t (fst p) (snd p)) ts (combine ms l) -> length ms = length ts -> length l = length ts ->
    holds (TS ts) (MA ms) (VN l).

(** The expressions that are evaluated at run time, in the order they are written. *)
Fixpoint effects (i : init V) : list nat :=
  match i with
  | IExpr e => match e_const e with Some _ => [] | None => [e_id e] end
  | IList l => flat_map effects l
  end.

(** A constant, maybe in braces. *)
Inductive constant : init V -> Prop :=
| KExpr e c vy b : e_const e = Some c -> e_ty e = TB vy b -> constant (IExpr e)
| KBraces i : constant i -> constant (IList [i]).
Definition has_basic (b : basic) (e : expr V) : Prop := exists vy, e_ty e = TB vy b.

(** What the theorems leave out: lists for uniform vectors that are not constant and have too few values, nested
    braces, the only value of a type that is not the element type, or bool elements; and single values for uniform
    vectors of bool. *)
Inductive supported : ty -> init V -> Prop :=
| PExpr t e : (forall n vy b, t = TV false n BBool -> e_ty e <> TB vy b) -> supported t (IExpr e)
| PBasic vy b l : supported (TB vy b) (IList l)
| PConstants n b l : Forall constant l -> supported (TV false n b) (IList l)
| PVector n b es : length es = n -> b <> BBool ->
    (forall e, In e es -> e_atomic e = true /\ exists b', has_basic b' e) ->
    (forall k e b', nth_error es k = Some e -> has_basic b' e -> b' <> b ->
       exists j e', j <> k /\ nth_error es j = Some e' /\ has_basic b' e') ->
    supported (TV false n b) (IList (map IExpr es))
| POther n b es e l : e_atomic e = false -> supported (TV false n b) (IList (map IExpr es ++ IExpr e :: l))
| PVarying n b l : supported (TV true n b) (IList l)
| PArray n t l : Forall (supported t) l -> supported (TA n t) (IList l)
| PStruct ts l : supported_members ts l -> supported (TS ts) (IList l)
with supported_members : list ty -> list (init V) -> Prop :=
| PNil ts : supported_members ts []
| PCons t ts i l : supported t i -> supported_members ts l -> supported_members (t :: ts) (i :: l).

(** Types without uniform vectors. *)
Fixpoint no_uniform_vector (t : ty) : bool :=
  match t with TB _ _ => true | TV vy _ _ => vy | TA _ t => no_uniform_vector t | TS ts => forallb no_uniform_vector ts end.

(** ** Dimensions *)
Fixpoint array (ds : list nat) (t : ty) : ty := match ds with [] => t | d :: ds => TA d (array ds t) end.
(** A list of d lists of ... *)
Fixpoint shape (ds : list nat) (i : init V) : Prop :=
  match ds with
  | [] => True
  | d :: ds => exists l, i = IList l /\ length l = d /\ Forall (shape ds) l
  end.
(** Lists no variable of the type may be initialized with. *)
Definition wrong_length (t : ty) (l : list (init V)) : Prop :=
  match t with
  | TB false _ => length l <> 1
  | TB true _ => length l <> 1 /\ length l <> W
  | TV _ n _ => n < length l
  | TA n _ => n < length l
  | TS ts => length ts < length l
  end.
(** Dimensions as declared, 0 if there is none. *)
Definition agrees (declared ds : list nat) : Prop := Forall2 (fun d n => d = 0 \/ d = n) declared ds.
End Spec.
