(** What an atomic operation on a varying value is supposed to do: each running instance issues its
    own operation, one after the other in some order, and gets back the value it found. *)
From Coq Require Import ZArith List Bool Permutation.
From Verif Require Import LanesSpec.
Import ListNotations.
Local Open Scope Z_scope.

Definition actions (A : Type) : Type := list ((Z -> A) -> (Z -> A)).

(* the memory after some actions of other threads *)
Definition act {A} (others : actions A) (m : Z -> A) : Z -> A := fold_left (fun m f => f m) others m.

Definition write {A} (m : Z -> A) (p : Z) (x : A) : Z -> A := fun q => if q =? p then x else m q.

(** [issued ptr op sched m m' rets]: from memory [m], for each entry (others, l) of the schedule,
    first the actions [others] of other threads happen, then instance [l] atomically replaces the
    value x at its address [ptr l] by [op l x] and gets x.  [m'] is the memory after the last
    entry, [rets] lists what each instance got. *)
Inductive issued {A} (ptr : nat -> Z) (op : nat -> A -> A) :
  list (actions A * nat) -> (Z -> A) -> (Z -> A) -> list (nat * A) -> Prop :=
| issued_nil m : issued ptr op [] m m []
| issued_cons others l sched m m' rets :
    let m0 := act others m in
    issued ptr op sched (write m0 (ptr l) (op l (m0 (ptr l)))) m' rets ->
    issued ptr op ((others, l) :: sched) m m' ((l, m0 (ptr l)) :: rets).

(** The effect of a varying atomic: [m] before, [m'] after, [ret l] what instance l received, [env]
    the actions of other threads that took place meanwhile, in order.  Memories are compared
    pointwise. *)
Definition some_serial_order {A} (W : nat) (mask : nat -> bool) (ptr : nat -> Z) (op : nat -> A -> A)
    (env : actions A) (m m' : Z -> A) (ret : nat -> option A) : Prop :=
  exists sched m1 rets last,
    Permutation (map snd sched) (running W mask) /\
    List.concat (map fst sched) ++ last = env /\
    issued ptr op sched m m1 rets /\
    (forall q, m' q = act last m1 q) /\
    (forall l r, In (l, r) rets -> ret l = Some r).

(** The same with the order fixed: increasing instance number, and no other thread involved. *)
Definition in_instance_order {A} (W : nat) (mask : nat -> bool) (ptr : nat -> Z) (op : nat -> A -> A)
    (m m' : Z -> A) (ret : nat -> option A) : Prop :=
  exists m1 rets,
    issued ptr op (map (fun l => ([], l)) (running W mask)) m m1 rets /\
    (forall q, m' q = m1 q) /\
    (forall l r, In (l, r) rets -> ret l = Some r).

(** Values of n-bit signed integers, and memories and other threads that stay within a type *)
Definition uint_n (n x : Z) : Prop := 0 <= x < 2 ^ n.
Definition int_n (n x : Z) : Prop := - 2 ^ (n - 1) <= x < 2 ^ (n - 1).
Definition typed {A} (T : A -> Prop) (m : Z -> A) : Prop := forall p, T (m p).
Definition well_typed_actions {A} (T : A -> Prop) (env : actions A) : Prop :=
  Forall (fun f => forall m, typed T m -> typed T (f m)) env.
