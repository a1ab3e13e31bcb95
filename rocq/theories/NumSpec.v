(** What the integer helpers should compute. *)
From Coq Require Import ZArith List Bool.
From Verif Require Import LanesSpec.
Import ListNotations.
Local Open Scope Z_scope.

(** A block of [n] bytes lies in the 64-bit address space. *)
Definition block (p n : Z) : Prop := 0 <= p /\ p + Z.max n 0 <= 2 ^ 64.

(** [m'] is [m] after the [n] bytes at [s], as they were, have been written to [d]: nothing else has
    changed. *)
Definition is_move (m : Z -> Z) (d s n : Z) (m' : Z -> Z) : Prop :=
  (forall k, 0 <= k < n -> m' (d + k) = m (s + k)) /\
  (forall a, ~ (d <= a < d + n) -> m' a = m a).

Definition is_fill (m : Z -> Z) (d x n : Z) (m' : Z -> Z) : Prop :=
  (forall k, 0 <= k < n -> m' (d + k) = x) /\
  (forall a, ~ (d <= a < d + n) -> m' a = m a).

Definition disjoint (p n q k : Z) : Prop := p + n <= q \/ q + k <= p \/ n <= 0 \/ k <= 0.

(** The effects of the lanes in the list, one after the other. *)
Fixpoint in_turn {M} (step : nat -> M -> M -> Prop) (ls : list nat) (m m' : M) : Prop :=
  match ls with
  | [] => m' = m
  | l :: t => exists m1, step l m m1 /\ in_turn step t m1 m'
  end.

(** C division: the quotient truncates toward zero, the remainder has the sign of the dividend. *)
Definition is_cdiv (x y q r : Z) : Prop :=
  x = q * y + r /\ Z.abs r < Z.abs y /\ (r = 0 \/ (0 < r /\ 0 < x) \/ (r < 0 /\ x < 0)).

(** C leaves x / y and x % y undefined for a zero divisor and, in signed n-bit types, for
    INT_MIN and -1. *)
Definition div_defined (signed : bool) (n x y : Z) : Prop :=
  y <> 0 /\ ~ (signed = true /\ x = - 2 ^ (n - 1) /\ y = -1).

(** [r] zeros above the highest one bit of the n-bit value; n when there is no one bit. *)
Definition is_clz (n : Z) (x r : Z) : Prop :=
  0 <= r <= n /\ (forall i, n - r <= i < n -> Z.testbit x i = false) /\
  (r < n -> Z.testbit x (n - 1 - r) = true).
Definition is_ctz (n : Z) (x r : Z) : Prop :=
  0 <= r <= n /\ (forall i, 0 <= i < r -> Z.testbit x i = false) /\
  (r < n -> Z.testbit x r = true).
(** The number of one bits among bits 0 .. n-1. *)
Definition bit_count (n : nat) (x : Z) : Z :=
  Z.of_nat (length (filter (fun i => Z.testbit x (Z.of_nat i)) (seq 0 n))).
