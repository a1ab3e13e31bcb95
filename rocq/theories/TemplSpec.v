(** What the documentation says of function templates (docs/ispc.rst:5144-5310): which types the
    arguments of a call give to the template's parameters, what an instance's parameters then are, and
    which body a call runs. *)
From Coq Require Import ZArith NArith Bool Ascii List.
From Verif Require Import TemplModel.
Import ListNotations.

(* a complete type of a value: uniform or varying throughout, no template parameter left, no reference *)
Fixpoint ordinary (t : ty) : Prop :=
  match t with
  | Atom v _ _ => v <> Unb
  | Parm _ _ _ | Ref _ _ _ => False
  | Ptr v _ b => v <> Unb /\ ordinary b
  | Vec b n | Arr b n => ordinary b /\ match n with CFix _ => True | CSym _ => False end
  end.
(* the type of an argument: a value, or a reference to one *)
Definition argument (t : ty) : Prop :=
  match t with Ref _ _ b => ordinary b | _ => ordinary t end.
Definition ordinary_arg (a : targ) : Prop := match a with AType t => ordinary t | AVal _ _ => True end.

(* A choice of a type for every type parameter and of a number for every non-type parameter *)
Record choice := Choice { c_type : name -> ty; c_num : name -> N }.

(* The type a parameter's declaration stands for under a choice: a keyword on T replaces the variability
   of T, const adds const; where the source says neither uniform nor varying, a parameter is varying and
   what a pointer points to is uniform. *)
Definition bind (d v : vr) : vr := match v with Unb => d | _ => v end.
Definition keyword (v : vr) (t : ty) : ty := match v with Unb => t | _ => with_var v t end.
Fixpoint meaning (s : choice) (d : vr) (t : ty) : ty :=
  match t with
  | Atom v c b => Atom (bind d v) c b
  | Parm v c x => let r := keyword v (c_type s x) in if c then with_const true r else r
  | Ptr v c b => Ptr (bind d v) c (meaning s Uni b)
  | Ref _ _ b => mk_ref (meaning s d b)
  | Vec b n => Vec (meaning s d b) (match n with CFix k => CFix k | CSym x => CFix (c_num s x) end)
  | Arr b n => Arr (meaning s d b) (match n with CFix k => CFix k | CSym x => CFix (c_num s x) end)
  end.

(* The template arguments that a choice stands for *)
Definition chosen (s : choice) (p : tparam) : targ :=
  match p with PType x => AType (c_type s x) | PNon x _ => AVal int32 (Z.of_N (c_num s x)) end.

(* The argument has exactly the parameter's type: for a reference parameter the type referred to; for a
   parameter passed by value after the usual decay of arrays and apart from const at the top *)
Definition value_of (a : ty) : ty := match a with Ref _ _ t => t | _ => a end.
(* an array passed by value becomes a uniform pointer to its first element (docs/ispc.rst 3189-3233) *)
Definition decayed (a : ty) : ty := match a with Arr t _ => Ptr Uni false t | _ => a end.
Definition exact (par a : ty) : Prop :=
  match par with
  | Ref _ _ t => value_of a = t
  | _ => with_const false (decayed (value_of a)) = with_const false par
  end.

(* The shapes of parameter types the deduction is made for: T, possibly const, below any pointers and
   possibly a reference; or the short vector T<N>, possibly by reference *)
Fixpoint pointers_to (x : name) (c : bool) (t : ty) : Prop :=
  match t with
  | Parm Unb k y => x = y /\ c = k
  | Ptr _ _ b => pointers_to x c b
  | _ => False
  end.
Definition vector_of (x y : name) (t : ty) : Prop := t = Vec (Parm Unb false x) (CSym y).
Definition target (t : ty) : ty := match t with Ref _ _ b => b | _ => t end.
Definition by_value (t : ty) : Prop := match t with Ref _ _ _ => False | _ => True end.

(* p is made of the template's parameter x (and, for a short vector, of another one) *)
Definition made_of (x : name) (p : ty) : Prop :=
  (exists c, pointers_to x c (target p)) \/ (exists y, vector_of x y (target p) \/ vector_of y x (target p)).
Definition type_given (given : list tparam) (x : name) : Prop := In (PType x) given.
Definition number_given (given : list tparam) (y : name) : Prop := exists b, In (PNon y b) given.
(* The parameter is of such a shape, its argument has exactly the type that the choice makes of it, and
   const is not asked for twice: the choice has no const where the parameter's declaration adds it, or
   where T is passed by value.  Of a short vector T<N>, both T and N are given in the call or none is. *)
Definition suits (t : templ) (s : choice) (given : list tparam) (p a : ty) : Prop :=
  argument a /\ exact (meaning s Vry p) a /\
  ((exists x c, type_given (t_parms t) x /\ pointers_to x c (target p) /\
      (c = true \/ (by_value p /\ is_parm p = true) -> is_const (c_type s x) = false)) \/
   (exists x y, type_given (t_parms t) x /\ number_given (t_parms t) y /\ vector_of x y (target p) /\
      (by_value p -> is_const (c_type s x) = false) /\
      (type_given given x <-> number_given given y))).

(* documented: docs/ispc.rst:5204-5222 (T t), (uniform T t), (varying T t) for a uniform and a varying
   argument; None: an error *)
Definition documented (q v : vr) : option vr :=
  match q, v with
  | Unb, v => Some v
  | Uni, Uni => Some Vry
  | Uni, Vry => None
  | _, _ => Some Uni
  end.

(* whether any of the arguments for T = x is varying *)
Definition some_varying (x : name) (l : list (name * vr)) : bool :=
  existsb (fun p => name_eqb (fst p) x && vr_eqb (snd p) Vry) l.

(* a list of template arguments stands for a choice, whatever the type a number was written with *)
Definition stands_for (s : choice) (p : tparam) (a : targ) : Prop :=
  match p, a with
  | PType x, AType t => c_type s x = t
  | PNon x _, AVal _ z => z = Z.of_N (c_num s x)
  | _, _ => False
  end.
(* only parameters of the template occur in the type, and a reference only at the top *)
Fixpoint closed_value (ps : list tparam) (t : ty) : Prop :=
  match t with
  | Atom _ _ _ => True
  | Parm _ _ x => In (PType x) ps
  | Ptr _ _ b => closed_value ps b
  | Ref _ _ _ => False
  | Vec b n | Arr b n =>
      closed_value ps b /\ match n with CFix _ => True | CSym y => exists k, In (PNon y k) ps end
  end.

(* nothing is left to deduce from this parameter: all in it is given in the call *)
Definition nothing_left (given : list tparam) (p a : ty) : Prop := argument a /\ closed_value given (target p).

(* the commands of a program about the specialization for given (normalized) arguments *)
Definition defines (args : list targ) (c : cmd) : Prop :=
  match c with Define a _ _ _ => map set_as_varying a = args | _ => False end.
Definition declares (args : list targ) (c : cmd) : Prop :=
  match c with
  | Define a _ _ _ | Declare a _ _ => map set_as_varying a = args
  | _ => False
  end.
Definition defines_as (args : list targ) (id : nat) (c : cmd) : Prop :=
  match c with Define a _ _ i => map set_as_varying a = args /\ i = id | _ => False end.
(* a call (or an explicit instantiation) for these template arguments *)
Definition uses (t : templ) (args : list targ) (c : cmd) : Prop :=
  match c with
  | Call ex a => template_args t (map normalize ex) a = Match args
  | Instantiate a _ => map set_as_varying a = args
  | _ => False
  end.
(* a specialization, or an explicit instantiation, repeats the instance's parameter and return types *)
Definition same_signature (t : templ) (c : cmd) : Prop :=
  match c with
  | Define a fs ret _ | Declare a fs ret =>
      fs = inst_params t (map set_as_varying a) /\ ret = inst_ret t (map set_as_varying a)
  | _ => True
  end.
(* all the types in the program are complete *)
Definition complete (c : cmd) : Prop :=
  match c with
  | Call ex args => Forall (fun a => ordinary_arg (normalize a)) ex /\ Forall argument args
  | Define a _ _ _ | Declare a _ _ | Instantiate a _ => Forall (fun x => ordinary_arg (set_as_varying x)) a
  end.
