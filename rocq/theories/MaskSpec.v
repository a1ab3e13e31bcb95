(** Specification for the simplification of masked operations (C36). *)

From Coq Require Import ZArith List Bool Lia.
From Verif Require Import Bits MaskModel.
Import ListNotations.
Open Scope Z_scope.

(** ** Masks at run time *)

(** Is lane [i] on?  [pick] decides for elements that are undef, and is the
    value of those that are not known at compile time.  On the targets that use
    vectors of integers or floats as masks the highest bit counts; a mask of
    booleans has elements of one bit. *)
Definition on (pick : nat -> bool) (m : mask) (i : nat) : bool :=
  match m with
  | MVec l => match nth_error l i with
              | Some (MInt w z) | Some (MFloat w z) => Z.testbit z (w - 1)
              | _ => pick i
              end
  | MZero _ => false
  | MOther _ => pick i
  end.

Definition lanes (m : mask) : nat :=
  match m with MVec l => length l | MZero n | MOther n => n end.

(** A mask with all elements given. *)
Definition known (m : mask) : Prop :=
  match m with
  | MVec l => forall c, In c l -> match c with MInt _ _ | MFloat _ _ => True | _ => False end
  | _ => True
  end.

(** ** Operations *)

(** select and blend, lane by lane. *)
Definition selected {A} (n : nat) (on : nat -> bool) (a b : nat -> A) : list A :=
  map (fun i => if on i then a i else b i) (seq 0 n).

(** Memory holds one element per address; an access to consecutive elements
    starts at [p].  [None]: the memory cannot be accessed. *)
Definition memory := Z -> option Z.

(** A masked load: what each lane gets ([off]: what lanes that are off get). *)
Definition loaded (n : nat) (on : nat -> bool) (mem : memory) (p : Z) (off : nat -> option Z)
  : list (option Z) :=
  selected n on (fun i => mem (p + Z.of_nat i)) off.

Definition stored (n : nat) (on : nat -> bool) (mem : memory) (p : Z) (v : nat -> Z) : memory :=
  fun a => let i := Z.to_nat (a - p) in
           if (p <=? a) && (a <? p + Z.of_nat n) && on i then Some (v i) else mem a.

(** The addresses accessed. *)
Definition accessed (n : nat) (on : nat -> bool) (p : Z) : list Z :=
  map (fun i => p + Z.of_nat i) (filter on (seq 0 n)).

(** movmsk: bit [i] of the result is lane [i]. *)
Definition movmsk (n : nat) (on : nat -> bool) : Z :=
  fold_right Z.add 0 (map (fun i => if on i then 2 ^ Z.of_nat i else 0) (seq 0 n)).

(** The replaced operations. *)
Definition all_on : nat -> bool := fun _ => true.
Definition all_off : nat -> bool := fun _ => false.

(** What a choice between the three stands for. *)
Definition mask_after (c : choice3) (before : nat -> bool) : nat -> bool :=
  match c with TakeOn => all_on | TakeOff => all_off | Keep => before end.

(** Masks of booleans, all of them given. *)
Definition bools (l : list melt) : Prop := forall c, In c l -> c = MInt 1 0 \/ c = MInt 1 1.
