(** What it means that replacing vector code by instructions of the target keeps results. *)
From Coq Require Import ZArith List Bool.
From Verif Require Import Bits PeepModel.
Import ListNotations.
Local Open Scope Z_scope.

(** The types LLVM's verifier asks for, in code for one target. *)
Fixpoint typed (T : target) (e : expr) : Prop :=
  match e with
  | Val t _ => 0 < bits t
  | Cst t c => 0 < bits t /\ length c = lns t /\ Forall (in_u (bits t)) c
  | Cast c t a =>
      typed T a /\ lns t = lns (ty_of T a) /\
      match c with ZExt | SExt => bits (ty_of T a) < bits t | Trunc => 0 < bits t < bits (ty_of T a) end
  | Bin _ a b => typed T a /\ typed T b /\ ty_of T a = ty_of T b
  | Avg f a b =>
      typed T a /\ typed T b /\
      ty_of T a = Vec (width T) (avg_bits f) /\ ty_of T b = Vec (width T) (avg_bits f)
  | Shift _ v n => typed T v /\ lns (ty_of T v) = width T /\ - 2 ^ 31 <= n < 2 ^ 31
  | ShiftBy _ v _ => typed T v /\ lns (ty_of T v) = width T
  | Shuffle v idx =>
      typed T v /\ lns (ty_of T v) = width T /\ length idx = width T
  end.

(** Every lane that has a value keeps it. *)
Definition keeps (T : target) (e e' : expr) : Prop :=
  forall rho amt l v, (l < width T)%nat -> lane T rho amt e l = Some v -> lane T rho amt e' l = Some v.

(** A constant vector with the value [c] in all lanes. *)
Definition all_lanes (c : Z) (e : expr) : Prop := exists t l, e = Cst t l /\ l <> [] /\ Forall (eq c) l.

(** The parts of an expression. *)
Fixpoint parts (e : expr) : list expr :=
  e :: match e with
       | Val _ _ | Cst _ _ => []
       | Cast _ _ a | Shift _ a _ | ShiftBy _ a _ | Shuffle a _ => parts a
       | Bin _ a b | Avg _ a b => parts a ++ parts b
       end.

(** No division by 1 or 3 and no addition of 0.  (The first and last never reach the pass: LLVM's
    InstCombine, which runs before, removes them.) *)
Definition no_thirds (e : expr) : Prop :=
  forall x y, (In (Bin UDiv x y) (parts e) -> ~ all_lanes 1 y /\ ~ all_lanes 3 y) /\
              (In (Bin Add x y) (parts e) -> ~ all_lanes 0 x /\ ~ all_lanes 0 y).

(** No shift() by a constant that takes the lane number past the largest int. *)
Definition no_overflow (T : target) (e : expr) : Prop :=
  forall s v n, In (Shift s v n) (parts e) -> n + Z.of_nat (width T) <= 2 ^ 31.
