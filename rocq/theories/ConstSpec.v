(** What [const] promises, in terms of declared types and memory only. *)
From Coq Require Import ZArith List Bool Arith.
Import ListNotations.
From Verif Require Import ConstModel.

(** The scalar at path [p] of an object declared with type [t] is const: its own type, or that of an array or structure around it, is
    const-qualified in the declarations. *)
Inductive const_at (D : structs) : ty -> list nat -> Prop :=
| CA_int : const_at D (TInt true) []
| CA_ptr t : const_at D (TPtr true t) []
| CA_arr n t i p : i < n -> const_at D t p -> const_at D (TArr n t) (i :: p)
| CA_member c s ms i m p : nth_error D s = Some ms -> nth_error ms i = Some m -> const_at D m p -> const_at D (TStruct c s) (i :: p)
| CA_struct s ms i m p : nth_error D s = Some ms -> nth_error ms i = Some m -> scalar_at D m p -> const_at D (TStruct true s) (i :: p)
with scalar_at (D : structs) : ty -> list nat -> Prop :=
| SA_int c : scalar_at D (TInt c) []
| SA_ptr c t : scalar_at D (TPtr c t) []
| SA_arr n t i p : i < n -> scalar_at D t p -> scalar_at D (TArr n t) (i :: p)
| SA_struct c s ms i m p : nth_error D s = Some ms -> nth_error ms i = Some m -> scalar_at D m p -> scalar_at D (TStruct c s) (i :: p).

(** Every const scalar of every object has the value it had when the object was made. *)
Definition const_kept (D : structs) (st : state) : Prop :=
  forall b t v p, nth_error (blocks st) b = Some (t, v) -> const_at D t p -> mem st b p = v p.

(** The programs the theorem is about: memset is not called, no reference is declared whose target is a const pointer or an array of const
    pointers, and an array that is a member of a structure holds no const member of a structure (unless its elements are const). *)
Fixpoint strip_arrays (t : ty) : ty := match t with TArr _ t => strip_arrays t | _ => t end.
Definition plain_ref (t : ty) : Prop := match strip_arrays t with TPtr true _ => False | _ => True end.
Fixpoint plain (c : cmd) : Prop :=
  match c with
  | Seq c1 c2 | If c1 c2 => plain c1 /\ plain c2
  | Let _ _ c | While c | LetCall _ _ _ c => plain c
  | LetRef t _ c => plain_ref t /\ plain c
  | Fill _ _ => False
  | _ => True
  end.
Definition plain_prog (P : prog) : Prop :=
  (forall f, In f (funcs P) -> plain (body f) /\ forall t, In (true, t) (params f) -> plain_ref t) /\
  (forall ms n t, In ms (defs P) -> In (TArr n t) ms -> is_const t = true \/ forall p, ~ const_at (defs P) (TArr n t) p).

(** The same type with const added at the outermost level (in an array: to its elements). *)
Inductive adds_const : ty -> ty -> Prop :=
| AC_int c : adds_const (TInt c) (TInt true)
| AC_ptr c t : adds_const (TPtr c t) (TPtr true t)
| AC_arr n t u : adds_const t u -> adds_const (TArr n t) (TArr n u)
| AC_struct c s : adds_const (TStruct c s) (TStruct true s)
| AC_void c : adds_const (TVoid c) (TVoid true).
