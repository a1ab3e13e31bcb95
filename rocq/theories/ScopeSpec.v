(** * Scoping and suggestions, independently of the tables *)
From Coq Require Import Bool Arith List.
From Verif Require Import TypesModel ScopeModel.
Import ListNotations.

(** Blocks that close what they open. *)
Inductive balanced : list op -> Prop :=
| bal_nil : balanced []
| bal_declare x i h : balanced h -> balanced (Declare x i :: h)
| bal_type x e h : balanced h -> balanced (DeclareType x e :: h)
| bal_function x i ft h : balanced h -> balanced (DeclareFunction x i ft :: h)
| bal_block b h : balanced b -> balanced h -> balanced (Open :: b ++ Close :: h).

(** The declarations of a history that are not inside a block of it. *)
Fixpoint direct (depth : nat) (h : list op) : list op :=
  match h with
  | [] => []
  | Open :: h => direct (S depth) h
  | Close :: h => direct (depth - 1) h
  | o :: h => match depth with 0 => o :: direct 0 h | _ => direct depth h end
  end.

(** The first of these that declares the variable. *)
Fixpoint first_declared (x : name) (h : list op) : option nat :=
  match h with
  | [] => None
  | Declare y i :: h => if name_eqb x y then Some i else first_declared x h
  | _ :: h => first_declared x h
  end.

(** For types: the first definition; before it, the latest declaration. *)
Fixpoint first_defined (x : name) (known : option type_entry) (h : list op) : option type_entry :=
  match h with
  | [] => known
  | DeclareType y e :: h =>
      if name_eqb x y
      then match known with Some (Defined _) => known | _ => first_defined x (Some e) h end
      else first_defined x known h
  | _ :: h => first_defined x known h
  end.

(** The function declarations of one name, each type once, in order. *)
Fixpoint overloads (x : name) (known : list (nat * ty)) (h : list op) : list (nat * ty) :=
  match h with
  | [] => known
  | DeclareFunction y i ft :: h =>
      if name_eqb x y && negb (existsb (fun f => equal false (snd f) ft) known)
      then overloads x (known ++ [(i, ft)]) h
      else overloads x known h
  | _ :: h => overloads x known h
  end.

(** [a] becomes [b] by inserting, deleting or changing [n] characters. *)
Inductive edits {A : Type} : nat -> list A -> list A -> Prop :=
| ed_nil : edits 0 [] []
| ed_keep n c a b : edits n a b -> edits n (c :: a) (c :: b)
| ed_change n c d a b : edits n a b -> edits (S n) (c :: a) (d :: b)
| ed_delete n c a b : edits n a b -> edits (S n) (c :: a) b
| ed_insert n d a b : edits n a b -> edits (S n) a (d :: b).
Definition distance {A : Type} (a b : list A) (n : nat) : Prop :=
  edits n a b /\ forall m, edits m a b -> n <= m.
