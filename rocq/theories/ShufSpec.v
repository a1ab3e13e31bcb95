(** What a program may expect of shuffle(v, perm) and shuffle(a, b, perm): a lane that is running,
    with an index inside the gang (inside the two gangs), gets the element with that index,
    whatever the lanes that are off hold. *)
From Coq Require Import ZArith List Bool.
From Verif Require Import ShufModel.
Local Open Scope Z_scope.

(* A bit pattern of an element of [bits] bits in every lane of the gang. *)
Definition elements (bits : Z) (W : nat) (v : nat -> Z) : Prop :=
  forall l, (l < W)%nat -> 0 <= v l < 2 ^ bits.

(* An int32 in every lane. *)
Definition int32s (W : nat) (perm : nat -> Z) : Prop :=
  forall l, (l < W)%nat -> - 2 ^ 31 <= perm l < 2 ^ 31.

(* Element [i] of two vectors placed one after the other. *)
Definition element2 (W : nat) (a b : nat -> Z) (i : Z) : Z :=
  if i <? Z.of_nat W then a (Z.to_nat i) else b (Z.to_nat (i - Z.of_nat W)).

(* The targets and element sizes whose shuffle of one vector goes through memory. *)
Definition through_memory (t : target) (e : elt) : bool :=
  match t, e with
  | (Skx32 | Icl32), E64 => true
  | (Skx64 | Icl64), (E32 | E64) => true
  | _, _ => false
  end.

(* The same for the shuffle of two vectors. *)
Definition through_memory2 (t : target) (e : elt) : bool :=
  match t, e with
  | (Avx1x4 | Avx2x4 | Avx2x8 | Avx2x16), (E8 | E16 | E64) => true
  | (Skx8 | Skx16 | Icl16), E64 => true
  | (Skx32 | Icl32), (E32 | E64) => true
  | Skx64, _ => true
  | Icl64, (E16 | E32 | E64) => true
  | _, _ => false
  end.
