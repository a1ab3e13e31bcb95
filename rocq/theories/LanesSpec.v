(** Specification of the cross-lane operations, independent of how they are computed: everything is
    phrased over the list of the executing program instances. *)
From Coq Require Import ZArith List Bool SpecFloat.
Import ListNotations.
Local Open Scope Z_scope.

(** The program instances (of a gang of W) that are executing, in index order. *)
Definition running (W : nat) (mask : nat -> bool) : list nat := filter mask (seq 0 W).

(** Their values. *)
Definition running_values {A} (W : nat) (mask : nat -> bool) (x : nat -> A) : list A :=
  map x (running W mask).

Fixpoint total (l : list Z) : Z := match l with [] => 0 | x :: l => x + total l end.

(** r is the representative of x modulo 2^n in the signed / unsigned n-bit type. *)
Definition is_wrap_s (n x r : Z) : Prop := - 2 ^ (n - 1) <= r < 2 ^ (n - 1) /\ exists q, x = r + q * 2 ^ n.
Definition is_wrap_u (n x r : Z) : Prop := 0 <= r < 2 ^ n /\ exists q, x = r + q * 2 ^ n.

Definition is_min (l : list Z) (r : Z) : Prop := In r l /\ forall x, In x l -> r <= x.
Definition is_max (l : list Z) (r : Z) : Prop := In r l /\ forall x, In x l -> x <= r.

(** IEEE comparisons used to say what the smallest number among some floats is. *)
Definition is_fmin (l : list spec_float) (r : spec_float) : Prop :=
  In r l /\ r <> S754_nan /\ forall x, In x l -> x <> S754_nan -> SFltb x r = false.
Definition is_fmax (l : list spec_float) (r : spec_float) : Prop :=
  In r l /\ r <> S754_nan /\ forall x, In x l -> x <> S754_nan -> SFltb r x = false.

(** Equal as IEEE data up to the sign of a zero. *)
Definition same_up_to_zero_sign (a b : spec_float) : Prop :=
  a = b \/ exists s t, a = S754_zero s /\ b = S754_zero t.

(** Adding up floats one after the other. *)
Definition float_total (prec emax : Z) (l : list spec_float) : spec_float :=
  fold_left (SFadd prec emax) l (S754_zero false).

(** All the values are equal to each other (under the language's ==). *)
Definition all_equal {A} (eqb : A -> A -> bool) (l : list A) : Prop :=
  forall x y, In x l -> In y l -> eqb x y = true.

(** Memory after storing the list l at consecutive elements from p. *)
Definition holds_at (m : Z -> Z) (p : Z) (l : list Z) : Prop :=
  forall k, (k < length l)%nat -> m (p + Z.of_nat k) = nth k l 0.
Definition unchanged_outside (m m' : Z -> Z) (p : Z) (len : Z) : Prop :=
  forall a, a < p \/ p + len <= a -> m' a = m a.
