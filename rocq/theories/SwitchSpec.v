(** The switch statement of C. *)
From Coq Require Import ZArith List Bool.
From Verif Require Import SwitchModel.
Import ListNotations.
Local Open Scope Z_scope.

(** Integer types and their values *)
Definition integer (t : ty) : Prop :=
  match t with Bool | Enum => True | Int n => In n [8; 16; 32; 64] | UInt n => In n [8; 16; 32; 64] | Float => False end.
Definition has_type (t : ty) (v : Z) : Prop :=
  match t with
  | Bool => v = 0 \/ v = 1
  | Int n => - 2 ^ (n - 1) <= v < 2 ^ (n - 1)
  | UInt n => 0 <= v < 2 ^ n
  | Enum => 0 <= v < 2 ^ 32
  | Float => False
  end.
(** The promoted type: values in it are equal if they differ by a multiple of 2 to the number of its bits. *)
Definition promoted_bits (t : ty) : Z := match t with Int 64 | UInt 64 => 64 | _ => 32 end.
Definition same (t : ty) (x v : Z) : Prop := exists k, x - v = k * 2 ^ promoted_bits t.
(** A label that belongs to the statement and not to a switch inside it, by type and value; [None] for default *)
Inductive belongs : option (ty * Z) -> stm -> Prop :=
| b_case t v s : belongs (Some (t, v)) (Case t v s)
| b_default s : belongs None (Default s)
| b_in_case l t v s : belongs l s -> belongs l (Case t v s)
| b_in_default l s : belongs l s -> belongs l (Default s)
| b_in_sub l s ss : In s ss -> belongs l s -> belongs l (Sub ss).
(** The constants of all labels are integers of their types. *)
Definition typed (s : stm) : Prop := forall t v, belongs (Some (t, v)) s -> integer t /\ has_type t v.
(** The labels of the statement as the compiler collects them *)
Definition labels (s : stm) : list label := fst (collect s ([], false)).
(** [l] is the compiler's label for the source's label. *)
Definition stands_for (l : label) (o : option (ty * Z)) : Prop :=
  match l, o with Value w, Some (t, v) => case_value t v = Some w | Otherwise, None => True | _, _ => False end.
(** The labels that belong to the statement, in the order of the source and with repetitions; that these are all is SwitchProofs.source_belongs. *)
Fixpoint source (s : stm) : list (option (ty * Z)) :=
  match s with
  | Other | Switch _ _ => []
  | Case t v b => Some (t, v) :: source b
  | Default b => None :: source b
  | Sub l => flat_map source l
  end.
